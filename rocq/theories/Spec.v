(** Independent specification vocabulary.  Nothing here mentions how the code works. *)
From Verif Require Import Base.

(** A layout: extents, strides (in elements, any sign) and offset.
    rstsr-common/src/layout/layoutbase.rs:15-23 (struct Layout).  [Ix<N>] and [IxD] both become lists;
    the offset is a usize in the code, i.e. never negative. *)
Record layout := mkLayout { l_shape : list nat; l_stride : list Z; l_offset : Z }.

Definition ndim (l : layout) : nat := length (l_shape l).

(** Number of elements of a shape: the product of extents (1 for rank 0). *)
Definition size (s : list nat) : nat := fold_right Nat.mul 1 s.

(** Index tuples of a shape. *)
Definition valid (s ix : list nat) : Prop := Forall2 (fun i n => i < n) ix s.

(** Storage position of an element. *)
Fixpoint dot (st : list Z) (ix : list nat) : Z :=
  match st, ix with
  | t :: st', i :: ix' => (t * Z.of_nat i + dot st' ix')%Z
  | _, _ => 0%Z
  end.
Definition addr (l : layout) (ix : list nat) : Z := (l_offset l + dot (l_stride l) ix)%Z.

(** All index tuples of a shape, last index running fastest / first index running fastest. *)
Fixpoint row_major (s : list nat) : list (list nat) :=
  match s with
  | [] => [[]]
  | n :: s' => flat_map (fun i => map (cons i) (row_major s')) (seq 0 n)
  end.
Fixpoint col_major (s : list nat) : list (list nat) :=
  match s with
  | [] => [[]]
  | n :: s' => flat_map (fun r => map (fun i => i :: r) (seq 0 n)) (col_major s')
  end.

(** FlagOrder, rstsr-common/src/flags.rs (C = row-major, F = col-major). *)
Inductive order := RowMajor | ColMajor.
Definition enum (o : order) (s : list nat) : list (list nat) :=
  match o with RowMajor => row_major s | ColMajor => col_major s end.
(** Positions of all elements of a layout, in row-/column-major order of their indices. *)
Definition addrs (o : order) (l : layout) : list Z := map (addr l) (enum o (l_shape l)).

(** A layout whose shape and stride lists fit together and whose offset is a usize.  (Empty views may carry
    an offset that was computed past either end of the storage and wrapped; it is never used.) *)
Definition wf (l : layout) : Prop :=
  length (l_stride l) = length (l_shape l) /\ (size (l_shape l) <> 0 -> (0 <= l_offset l)%Z).

(** Every element has a non-negative position (so it can be used as a usize). *)
Definition nonneg (l : layout) : Prop := forall ix, valid (l_shape l) ix -> (0 <= addr l ix)%Z.

(** Every element lies inside a storage of [len] elements. *)
Definition inside (l : layout) (len : nat) : Prop :=
  forall ix, valid (l_shape l) ix -> (0 <= addr l ix < Z.of_nat len)%Z.

(** Different indices, different positions. *)
Definition injective (l : layout) : Prop :=
  forall i j, valid (l_shape l) i -> valid (l_shape l) j -> addr l i = addr l j -> i = j.

(** Python axis numbering: [a] names axis [k] of an [nd]-dimensional array. *)
Definition axis_denotes (nd : nat) (a : Z) (k : nat) : Prop :=
  k < nd /\ (a = Z.of_nat k \/ a = (Z.of_nat k - Z.of_nat nd)%Z).

(** Python index of an axis of extent [n]: [i] names position [k]. *)
Definition index_denotes (i : Z) (n k : nat) : Prop := axis_denotes n i k.

(** [pick ax d l]: the list whose k-th entry is entry [ax[k]] of [l]. *)
Definition pick {A} (ax : list nat) (d : A) (l : list A) : list A := map (fun a => nth a l d) ax.

(** [n] consecutive positions starting at [z]. *)
Definition consecutive (z : Z) (n : nat) : list Z := map (fun k => (z + Z.of_nat k)%Z) (seq 0 n).

(** The axes 0..n-1 other than those listed, in increasing order. *)
Definition axes_except (n : nat) (ex : list nat) : list nat :=
  filter (fun k => negb (existsb (Nat.eqb k) ex)) (seq 0 n).

(** Python slice: the positions i of an axis of extent [len] selected by start:stop:step, in order.
    Bounds are adjusted as in the Python reference (slice.indices). *)
Definition py_adjust (x : Z) (len lower upper : Z) : Z :=
  if (x <? 0)%Z then Z.max (x + len) lower else Z.min x upper.
Definition py_slice (start stop : option Z) (step : Z) (len : nat) : list Z :=
  let n := Z.of_nat len in
  let lower := if (0 <? step)%Z then 0%Z else (-1)%Z in
  let upper := if (0 <? step)%Z then n else (n - 1)%Z in
  let b := match start with Some x => py_adjust x n lower upper | None => if (0 <? step)%Z then lower else upper end in
  let e := match stop with Some x => py_adjust x n lower upper | None => if (0 <? step)%Z then upper else lower end in
  let positions := map Z.of_nat (seq 0 len) in
  if (0 <? step)%Z
  then filter (fun i => (b <=? i)%Z && (i <? e)%Z && ((i - b) mod step =? 0)%Z) positions
  else filter (fun i => (i <=? b)%Z && (e <? i)%Z && ((b - i) mod (- step) =? 0)%Z) (rev positions).

(** struct Slice, rstsr-common/src/layout/slice.rs:5-12 (the isize instance SliceI) *)
Record slice := mkSlice { sl_start : option Z; sl_stop : option Z; sl_step : option Z }.
Definition unwrap_or {A} (o : option A) (d : A) : A := match o with Some x => x | None => d end.
Definition slice_positions (s : slice) (len : nat) : list Z :=
  py_slice (sl_start s) (sl_stop s) (unwrap_or (sl_step s) 1%Z) len.

(** enum Indexer, rstsr-common/src/layout/indexer.rs:5-16 *)
Inductive indexer := ISlice (s : slice) | ISelect (i : Z) | IInsert | IEllipsis.

(** NumPy basic indexing.  [reads ixs sh jx ix]: indexing an array of shape [sh] by [ixs], the element at [jx] of
    the result is the element at [ix] of the array. *)
Inductive reads : list indexer -> list nat -> list nat -> list nat -> Prop :=
| reads_nil : reads [] [] [] []
| reads_slice : forall s r d sh j jx i ix,
    nth_error (slice_positions s d) j = Some (Z.of_nat i) -> reads r sh jx ix ->
    reads (ISlice s :: r) (d :: sh) (j :: jx) (i :: ix)
| reads_select : forall k r d sh jx i ix,
    index_denotes k d i -> reads r sh jx ix -> reads (ISelect k :: r) (d :: sh) jx (i :: ix)
| reads_insert : forall r sh jx ix, reads r sh jx ix -> reads (IInsert :: r) sh (0 :: jx) ix
| reads_ellipsis : forall r pre sh p jx ix,
    valid pre p -> reads r sh jx ix -> reads (IEllipsis :: r) (pre ++ sh) (p ++ jx) (p ++ ix).
Definition is_ellipsis (x : indexer) : bool := match x with IEllipsis => true | _ => false end.
(** Missing trailing axes are taken whole. *)
Definition with_ellipsis (ixs : list indexer) : list indexer :=
  if existsb is_ellipsis ixs then ixs else ixs ++ [IEllipsis].

(** Slices on which the library and Python agree: a negative step with an explicit stop of -1, or with a start
    below -len, is treated differently (see C09's refutations). *)
Definition plain_slice (s : slice) (len : nat) : Prop :=
  (unwrap_or (sl_step s) 1 < 0)%Z ->
  sl_stop s <> Some (-1)%Z /\ (forall b, sl_start s = Some b -> (- Z.of_nat len <= b)%Z).

(** Positions at which a new axis can be inserted, Python numbering: -1 means "after the last axis". *)
Definition insert_denotes (nd : nat) (a : Z) (k : nat) : Prop :=
  k <= nd /\ (a = Z.of_nat k \/ a = (Z.of_nat k - Z.of_nat nd - 1)%Z).

(** Shape of the result of indexing: one extent per slice (the number of positions it selects), one 1 per new axis,
    none per integer.  Has no derivation when an integer is out of range, a step is zero, or the numbers of axes
    do not match. *)
Inductive index_shape : list indexer -> list nat -> list nat -> Prop :=
| shape_nil : index_shape [] [] []
| shape_slice : forall s r d sh out,
    unwrap_or (sl_step s) 1%Z <> 0%Z -> index_shape r sh out ->
    index_shape (ISlice s :: r) (d :: sh) (length (slice_positions s d) :: out)
| shape_select : forall k r d sh i out,
    index_denotes k d i -> index_shape r sh out -> index_shape (ISelect k :: r) (d :: sh) out
| shape_insert : forall r sh out, index_shape r sh out -> index_shape (IInsert :: r) sh (1 :: out)
| shape_ellipsis : forall r pre sh out, index_shape r sh out -> index_shape (IEllipsis :: r) (pre ++ sh) (pre ++ out).

(** Every slice is plain for the axis it falls on. *)
Inductive plain_indexers : list indexer -> list nat -> Prop :=
| plain_nil : plain_indexers [] []
| plain_slices : forall s r d sh, plain_slice s d -> plain_indexers r sh -> plain_indexers (ISlice s :: r) (d :: sh)
| plain_select : forall k r d sh, plain_indexers r sh -> plain_indexers (ISelect k :: r) (d :: sh)
| plain_insert : forall r sh, plain_indexers r sh -> plain_indexers (IInsert :: r) sh
| plain_ellipsis : forall r pre sh, plain_indexers r sh -> plain_indexers (IEllipsis :: r) (pre ++ sh).

(** at most one ellipsis *)
Definition one_ellipsis (ixs : list indexer) : Prop := length (filter is_ellipsis ixs) <= 1.

(** Broadcasting.  Shapes are aligned at the last axis for row-major, at the first axis for column-major;
    [ext o s k] is the k-th extent counted from the aligned end, 1 where the shape has no such axis. *)
Definition ext (o : order) (s : list nat) (k : nat) : nat :=
  nth k (match o with RowMajor => rev s | ColMajor => s end) 1.
Definition broadcasts (o : order) (s1 s2 s : list nat) : Prop :=
  length s = Nat.max (length s1) (length s2) /\
  forall k, let a := ext o s1 k in let b := ext o s2 k in let c := ext o s k in
    (a = b /\ c = a) \/ (a = 1 /\ c = b) \/ (b = 1 /\ c = a).
(** Index in a source of shape [s] of the element seen at [ix] of the broadcast array: drop the extra axes, use 0
    on axes of extent 1. *)
Definition clip (s ix : list nat) : list nat := map (fun p => if fst p =? 1 then 0 else snd p) (combine s ix).
Definition source_index (o : order) (s ix : list nat) : list nat :=
  clip s (match o with RowMajor => skipn (length ix - length s) ix | ColMajor => firstn (length s) ix end).

(** ** Reshaping.  [s] is one way to fill in a requested shape: every extent as requested, any extent where -1 was given. *)
Definition fills (shape : list Z) (s : list nat) : Prop := Forall2 (fun v d => v = -1 \/ v = Z.of_nat d)%Z shape s.

(** ** Double-ended iteration.  What a client can do with an iterator that still has the items [xs]: take one from the
    front or the back, or split it at [n] and go on with one half. *)
Inductive iop := Front | Back | KeepLeft (n : nat) | KeepRight (n : nat).
Fixpoint deque {A} (ops : list iop) (xs : list A) : list (option A) * list A :=
  match ops with
  | [] => ([], xs)
  | Front :: r => match xs with
                  | [] => let p := deque r [] in (None :: fst p, snd p)
                  | x :: xs' => let p := deque r xs' in (Some x :: fst p, snd p)
                  end
  | Back :: r => match rev xs with
                 | [] => let p := deque r [] in (None :: fst p, snd p)
                 | x :: xs' => let p := deque r (rev xs') in (Some x :: fst p, snd p)
                 end
  | KeepLeft n :: r => deque r (firstn n xs)
  | KeepRight n :: r => deque r (skipn n xs)
  end.
(** Splits happen within the remaining length. *)
Fixpoint splits_within {A} (ops : list iop) (xs : list A) : Prop :=
  match ops with
  | [] => True
  | KeepLeft n :: r => n <= length xs /\ splits_within r (firstn n xs)
  | KeepRight n :: r => n <= length xs /\ splits_within r (skipn n xs)
  | op :: r => splits_within r (snd (deque [op] xs))
  end.
(** Values handed out at the front / at the back by a history of calls (one output per Front or Back). *)
Fixpoint fronts {A} (ops : list iop) (outs : list (option A)) : list A :=
  match ops, outs with
  | Front :: r, Some x :: out => x :: fronts r out
  | Front :: r, None :: out | Back :: r, _ :: out => fronts r out
  | _, _ => []
  end.
Fixpoint backs {A} (ops : list iop) (outs : list (option A)) : list A :=
  match ops, outs with
  | Back :: r, Some x :: out => x :: backs r out
  | Back :: r, None :: out | Front :: r, _ :: out => backs r out
  | _, _ => []
  end.
(** The ways a work-stealing scheduler may split a sequence: a leaf is consumed front to back by one worker. *)
Inductive split_tree := Leaf | Node (n : nat) (left right : split_tree).
Fixpoint leaves {A} (t : split_tree) (xs : list A) : list (list A) :=
  match t with
  | Leaf => [xs]
  | Node n a b => leaves a (firstn n xs) ++ leaves b (skipn n xs)
  end.
Fixpoint tree_within {A} (t : split_tree) (xs : list A) : Prop :=
  match t with
  | Leaf => True
  | Node n a b => n <= length xs /\ tree_within a (firstn n xs) /\ tree_within b (skipn n xs)
  end.

(** ** Result layout of a binary operation.  Extents with the axes that both operands broadcast (stride 0) left out. *)
Definition both_broadcast (la lb : layout) (k : nat) : bool :=
  (nth k (l_stride la) 0 =? 0)%Z && (nth k (l_stride lb) 0 =? 0)%Z.
Definition own_extents (la lb : layout) : list nat :=
  map (fun k => if both_broadcast la lb k then 1 else nth k (l_shape la) 0) (seq 0 (ndim la)).

(** ** Storage.  The value at a storage position; the element of a tensor (storage and layout) at an index. *)
Definition peek {T} (buf : list T) (p : Z) : option T := if (p <? 0)%Z then None else nth_error buf (Z.to_nat p).
Definition elem {T} (buf : list T) (l : layout) (ix : list nat) : option T := peek buf (addr l ix).
(** [buf'] differs from [buf] at most at elements of [l]. *)
Definition untouched_outside {T} (l : layout) (buf buf' : list T) : Prop :=
  length buf' = length buf /\ forall p, (forall ix, valid (l_shape l) ix -> addr l ix <> p) -> peek buf' p = peek buf p.

(** Index [i] of an array of shape [s] and index [j] of an array of shape [s'] have the same rank in the enumeration order
    [o]: they are both the k-th index, for the same k. *)
Definition same_rank (o : order) (s s' : list nat) (i j : list nat) : Prop :=
  exists k, nth_error (enum o s) k = Some i /\ nth_error (enum o s') k = Some j.

(** ** Reductions.  A combination that does not depend on grouping or order, with a neutral element. *)
Definition comm_monoid {S} (e : S) (op : S -> S -> S) : Prop :=
  (forall a b c, op a (op b c) = op (op a b) c) /\ (forall a b, op a b = op b a) /\ (forall a, op e a = a).
Definition total {S} (e : S) (op : S -> S -> S) (xs : list S) : S := fold_right op e xs.
(** [xs] are the elements at the indices [ixs], in that order. *)
Definition elements {T} (buf : list T) (l : layout) (ixs : list (list nat)) (xs : list T) : Prop :=
  Forall2 (fun ix x => elem buf l ix = Some x) ixs xs.
(** ** Arg reductions.  [lt] behaves like < on values none of which is incomparable (a NaN): equal values are allowed. *)
Definition weak_order {T} (lt : T -> T -> bool) : Prop :=
  (forall x, lt x x = false) /\ (forall x y z, lt x y = true -> lt y z = true -> lt x z = true) /\
  (forall x y z, lt x z = true -> lt x y = true \/ lt y z = true).
(** [ix] is the first index in row-major order of a shape at which [read] is least: every earlier value is greater, no later
    one is less. *)
Definition first_least {T} (lt : T -> T -> bool) (read : list nat -> option T) (s : list nat) (ix : list nat) : Prop :=
  exists before after x, row_major s = before ++ ix :: after /\ read ix = Some x /\
    (forall j y, In j before -> read j = Some y -> lt x y = true) /\
    (forall j y, In j after -> read j = Some y -> lt y x = false).
(** The index of an [n]-dimensional array with entries [sx] at the axes [ax] and [mx] at the other axes. *)
Fixpoint index_of (k : nat) (l : list nat) : nat :=
  match l with [] => 0 | x :: r => if (x =? k) then 0 else S (index_of k r) end.
Definition merge (n : nat) (ax sx mx : list nat) : list nat :=
  map (fun k => nth (index_of k (ax ++ axes_except n ax)) (sx ++ mx) 0) (seq 0 n).
(** The indices of an array of shape [s] that have the entries [mx] at all axes except [ax]. *)
Definition group (s ax mx : list nat) : list (list nat) :=
  filter (fun ix => if list_eq_dec Nat.eq_dec (pick (axes_except (length s) ax) 0 ix) mx then true else false) (row_major s).
(** No axis is repeated by broadcasting: a zero stride only where the extent is 1. *)
Definition no_broadcast (l : layout) : Prop := forall k, k < length (l_shape l) -> nth k (l_shape l) 0 <> 1 -> nth k (l_stride l) 0%Z <> 0%Z.

(** ** Relabelling views.  The index with the entries of the axes [ax] counted from the other end. *)
Definition flip_index (s ax ix : list nat) : list nat :=
  map (fun k => if existsb (Nat.eqb k) ax then nth k s 0 - 1 - nth k ix 0 else nth k ix 0) (seq 0 (length s)).
(** The order [p] of the axes after moving the axes [src] to the positions [dst]: each moved axis is at its destination, and at
    the other positions are the other axes, in increasing order. *)
Definition moved (n : nat) (src dst p : list nat) : Prop :=
  length p = n /\ (forall i, i < length src -> nth (nth i dst 0) p 0 = nth i src 0) /\
  pick (axes_except n dst) 0 p = axes_except n src.
(** Every element of [l'] is an element of [l]. *)
Definition shows_only (l l' : layout) : Prop :=
  forall jx, valid (l_shape l') jx -> exists ix, valid (l_shape l) ix /\ addr l' jx = addr l ix.
(** A layout ordered for BLAS-like use: from the fastest axis (the last one for row-major) on, the strides of the axes with more than
    one element do not decrease, they are positive, and the fastest axis, if it has more than one element, has stride 1. *)
Definition ordered (o : order) (l : layout) : Prop :=
  let ax := match o with RowMajor => rev (combine (l_stride l) (l_shape l)) | ColMajor => combine (l_stride l) (l_shape l) end in
  let ts := map fst (filter (fun p => negb (snd p =? 1)) ax) in
  StronglySorted Z.le ts /\ Forall (fun t => 1 <= t)%Z ts /\ match ax with (t, d) :: _ => d <> 1 -> t = 1%Z | [] => True end.
