(** Model of rstsr-common/src/layout/{indexer,slice}.rs. *)
From Verif Require Import Base Spec M_Layout.
Local Open Scope Z_scope.

(** [slice == Slice::new(None, None, None)] *)
Definition slice_is_full (s : slice) : bool :=
  match s with mkSlice None None None => true | _ => false end.
(** start and stop for a positive step, indexer.rs:144-164 *)
Definition narrow_pos (len : Z) (start stop : option Z) : Z * Z :=
  let start := unwrap_or start 0 in
  let stop := unwrap_or stop len in
  let start := if start <? 0 then Z.max (len + start) 0 else start in
  let stop := if stop <? 0 then Z.max (len + stop) 0 else stop in
  if (start >? len) || (start >? stop) then (0, 0)
  else if stop >? len then (start, len)
  else (start, stop).
(** start and stop for a negative step, indexer.rs:171-192 *)
Definition narrow_neg (len : Z) (start stop : option Z) : Z * Z :=
  let start := unwrap_or start (len - 1) in
  let stop := unwrap_or stop (-1) in
  let start := if start <? 0 then Z.max (len + start) 0 else start in
  let stop := if stop <? -1 then Z.max (len + stop) (-1) else stop in
  if (stop >? len - 1) || (stop >? start) then (0, 0)
  else if start >? len - 1 then (len - 1, stop)
  else (start, stop).
(** dim_narrow, indexer.rs:120-199.  Rust's [/] truncates: [Z.quot]. *)
Definition dim_narrow (l : layout) (axis : Z) (s : slice) : res layout :=
  let* a := check_axis axis (ndim l) in
  if slice_is_full s then Ok l else
  let len := Z.of_nat (nth a (l_shape l) 0%nat) in
  let step := unwrap_or (sl_step s) 1 in
  if step =? 0 then Err InvalidValue else
  if len =? 0 then Ok l else
  let t := nth a (l_stride l) 0 in
  if step >? 0 then
    let '(start, stop) := narrow_pos len (sl_start s) (sl_stop s) in
    layout_new (upd (l_shape l) a (Z.to_nat (Z.max (Z.quot (stop - start + step - 1) step) 0)))
               (upd (l_stride l) a (t * step)) (l_offset l + t * start)
  else
    let '(start, stop) := narrow_neg len (sl_start s) (sl_stop s) in
    layout_new (upd (l_shape l) a (Z.to_nat (Z.max (Z.quot (stop - start + step + 1) step) 0)))
               (upd (l_stride l) a (t * step)) (l_offset l + t * start).

(** dim_select, indexer.rs:226-254.  The loop that skips [axis] is [remove_at]. *)
Definition dim_select (l : layout) (axis index : Z) : res layout :=
  let* a := check_axis axis (ndim l) in
  let d := Z.of_nat (nth a (l_shape l) 0%nat) in
  let idx := if index <? 0 then d + index else index in
  if (0 <=? idx) && (idx <? d) then
    layout_new (remove_at (l_shape l) a) (remove_at (l_stride l) a) (l_offset l + nth a (l_stride l) 0 * idx)
  else Err IndexError.

(** dim_eliminate, indexer.rs:256-274 *)
Definition dim_eliminate (l : layout) (axis : Z) : res layout :=
  let* a := check_axis axis (ndim l) in
  if negb (nth a (l_shape l) 0 =? 1)%nat then Err InvalidValue
  else layout_new (remove_at (l_shape l) a) (remove_at (l_stride l) a) (l_offset l).

(** dim_chop, indexer.rs:276-290 *)
Definition dim_chop (l : layout) (axis : Z) : res layout :=
  let* a := check_axis axis (ndim l) in
  layout_new (remove_at (l_shape l) a) (remove_at (l_stride l) a) (l_offset l).

(** dim_insert, indexer.rs:308-336 *)
Definition dim_insert (l : layout) (axis : Z) : res layout :=
  let* a := check_axis_insert axis (ndim l) in
  let t := if f_prefer l then (if (a =? 0)%nat then 1 else nth (a - 1) (l_stride l) 0)
           else (if (a =? ndim l)%nat then 1 else nth a (l_stride l) 0) in
  layout_new (insert_at (l_shape l) a 1%nat) (insert_at (l_stride l) a t) (l_offset l).

(** counting pass of dim_slice, indexer.rs:369-383: (slices + selects, position of the ellipsis) *)
Fixpoint count_indexers (ixs : list indexer) (n cnt : nat) (ell : option nat) : res (nat * option nat) :=
  match ixs with
  | [] => Ok (cnt, ell)
  | (ISlice _ | ISelect _) :: r => count_indexers r (S n) (S cnt) ell
  | IEllipsis :: r => match ell with Some _ => Err InvalidValue | None => count_indexers r (S n) cnt (Some n) end
  | IInsert :: r => count_indexers r (S n) cnt ell
  end.
Definition full_slice : indexer := ISlice (mkSlice None None None).
(** ellipsis expansion of dim_slice, indexer.rs:386-403 *)
Definition expand_indexers (ixs : list indexer) (n_ellipsis : nat) (ell : option nat) : list indexer :=
  match ell with
  | Some p => firstn p ixs ++ repeat full_slice n_ellipsis ++ skipn (S p) ixs
  | None => ixs ++ repeat full_slice n_ellipsis
  end.
(** main loop of dim_slice, indexer.rs:405-423, last indexer first *)
Fixpoint slice_loop (ixs : list indexer) (l : layout) (cur : Z) : res (layout * Z) :=
  match ixs with
  | [] => Ok (l, cur)
  | x :: r =>
    let* p := slice_loop r l cur in
    let '(l, cur) := p in
    match x with
    | ISlice s => let* l := dim_narrow l (cur - 1) s in Ok (l, cur - 1)
    | ISelect i => let* l := dim_select l (cur - 1) i in Ok (l, cur - 1)
    | IInsert => let* l := dim_insert l cur in Ok (l, cur)
    | IEllipsis => Err InvalidValue
    end
  end.
(** dim_slice, indexer.rs:358-429 *)
Definition dim_slice (l : layout) (ixs : list indexer) : res layout :=
  let* l0 := layout_new (l_shape l) (l_stride l) (l_offset l) in
  let* c := count_indexers ixs 0 0 None in
  let '(cnt, ell) := c in
  if (ndim l <? cnt)%nat then Err ValueOutOfRange else
  let* p := slice_loop (expand_indexers ixs (ndim l - cnt) ell) l0 (Z.of_nat (ndim l)) in
  let '(l', cur) := p in
  if cur =? 0 then Ok l' else Err Miscellaneous.

(** dim_split_at, indexer.rs:431-451 *)
Definition dim_split_at (l : layout) (axis : Z) : res (layout * layout) :=
  let norm := if axis <? 0 then Z.of_nat (ndim l) + axis else axis in
  if negb ((0 <=? norm) && (norm <=? Z.of_nat (ndim l))) then Err AxisError
  else let a := Z.to_nat norm in
    Ok (mkLayout (firstn a (l_shape l)) (firstn a (l_stride l)) (l_offset l),
        mkLayout (skipn a (l_shape l)) (skipn a (l_stride l)) (l_offset l)).

(** dim_split_axes, indexer.rs:453-477 *)
Definition dim_split_axes (l : layout) (axes : list Z) : res (layout * layout) :=
  let* ax := normalize_axes_index (AxVec axes) (ndim l) false false in
  let rest := filter (fun k => negb (existsb (Nat.eqb k) ax)) (seq 0 (ndim l)) in
  let* la := layout_new (map (fun a => nth a (l_shape l) 0%nat) ax) (map (fun a => nth a (l_stride l) 0) ax) (l_offset l) in
  let* lr := layout_new (map (fun a => nth a (l_shape l) 0%nat) rest) (map (fun a => nth a (l_stride l) 0) rest) (l_offset l) in
  Ok (la, lr).
