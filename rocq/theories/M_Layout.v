(** Model of rstsr-common/src/layout/{layoutbase,shape}.rs and axis_index.rs. *)
From Verif Require Import Base Spec.
Local Open Scope Z_scope.

(** Offset convention.  [Layout.offset] is a usize which the code freely casts to isize and back
    (two's complement, a bijection).  [l_offset] holds the isize reading; where the code uses the usize value
    itself ([bounds_index]) we write [as_usize]. *)

Definition order_eqb (a b : order) : bool :=
  match a, b with RowMajor, RowMajor | ColMajor, ColMajor => true | _, _ => false end.

(** macro rstsr_check_axis!, rstsr-common/src/error.rs:348-367 *)
Definition check_axis (axis : Z) (nd : nat) : res nat :=
  let norm := if axis <? 0 then Z.of_nat nd + axis else axis in
  if (0 <=? norm) && (norm <? Z.of_nat nd) then Ok (Z.to_nat norm) else Err AxisError.

(** macro rstsr_check_axis_insert!, rstsr-common/src/error.rs:368-390 *)
Definition check_axis_insert (axis : Z) (nd : nat) : res nat :=
  let norm := if axis <? 0 then Z.of_nat nd + axis + 1 else axis in
  if (0 <=? norm) && (norm <=? Z.of_nat nd) then Ok (Z.to_nat norm) else Err AxisError.

(** [windows(2).any(|w| w[0] == w[1])] *)
Fixpoint adj_eq (l : list nat) : bool :=
  match l with
  | x :: ((y :: _) as r) => (x =? y)%nat || adj_eq r
  | _ => false
  end.

(** enum AxesIndex, axis_index.rs *)
Inductive axes_index := AxNone | AxVal (a : Z) | AxVec (v : list Z).

(** normalize_axes_index, rstsr-common/src/axis_index.rs:379-412.
    The returned isize values are non-negative, hence [nat] here. *)
Definition normalize_axes_index (axes : axes_index) (nd : nat) (allow_duplicate sort : bool) : res (list nat) :=
  let* vec := match axes with
    | AxNone => Err InvalidValue
    | AxVal a => let* a' := check_axis a nd in Ok [a']
    | AxVec v => let* n := map_res (fun a => check_axis a nd) v in
                 Ok (if sort then sort_by Nat.leb n else n)
    end in
  if allow_duplicate then Ok vec
  else let vec_sorted := if sort then vec else sort_by Nat.leb vec in
       if adj_eq vec_sorted then Err InvalidValue else Ok vec.

(** Layout::size, layoutbase.rs:67-69 *)
Definition l_size (l : layout) : nat := size (l_shape l).

(** loop of f_prefer / c_prefer, layoutbase.rs:97-114 and 127-144, on the zipped (stride, extent) list *)
Fixpoint prefer_loop (p : list (Z * nat)) (last : Z) : bool :=
  match p with
  | [] => true
  | (s, d) :: r =>
    if negb (d =? 1)%nat then
      if s <? last then false
      else if (last =? 0) && negb (s =? 1) then false
      else prefer_loop r s
    else if last =? 0 then prefer_loop r 1
    else prefer_loop r last
  end.
(** Layout::f_prefer, layoutbase.rs:89-116 *)
Definition f_prefer (l : layout) : bool :=
  if (ndim l =? 0)%nat || (l_size l =? 0)%nat then true
  else prefer_loop (combine (l_stride l) (l_shape l)) 0.
(** Layout::c_prefer, layoutbase.rs:119-146 *)
Definition c_prefer (l : layout) : bool :=
  if (ndim l =? 0)%nat || (l_size l =? 0)%nat then true
  else prefer_loop (rev (combine (l_stride l) (l_shape l))) 0.

(** loop of ndim_of_{f,c}_contig: number of leading axes of the list that are contiguous, layoutbase.rs:158-164, 178-184 *)
Fixpoint contig_loop (p : list (Z * nat)) (acc : Z) (k : nat) : nat :=
  match p with
  | [] => k
  | (s, d) :: r =>
    if negb (d =? 1)%nat && negb (s =? acc) then k
    else contig_loop r (acc * Z.of_nat d) (S k)
  end.
(** Layout::ndim_of_f_contig, layoutbase.rs:152-166 *)
Definition ndim_of_f_contig (l : layout) : nat :=
  if (ndim l =? 0)%nat || (l_size l =? 0)%nat then ndim l
  else contig_loop (combine (l_stride l) (l_shape l)) 1 0.
(** Layout::ndim_of_c_contig, layoutbase.rs:172-186 *)
Definition ndim_of_c_contig (l : layout) : nat :=
  if (ndim l =? 0)%nat || (l_size l =? 0)%nat then ndim l
  else contig_loop (rev (combine (l_stride l) (l_shape l))) 1 0.
(** Layout::f_contig / c_contig, layoutbase.rs:193-204 *)
Definition f_contig (l : layout) : bool := (ndim l =? ndim_of_f_contig l)%nat.
Definition c_contig (l : layout) : bool := (ndim l =? ndim_of_c_contig l)%nat.

(** loop of index_f, layoutbase.rs:215-219 (izip stops at the shortest list) *)
Fixpoint index_loop (ix : list Z) (sh : list nat) (st : list Z) (pos : Z) : res Z :=
  match ix, sh, st with
  | i :: ix', d :: sh', t :: st' =>
    let i' := if i <? 0 then i + Z.of_nat d else i in
    if (0 <=? i') && (i' <? Z.of_nat d) then index_loop ix' sh' st' (pos + t * i') else Err IndexError
  | _, _, _ => Ok pos
  end.
(** Layout::index_f, layoutbase.rs:209-222 *)
Definition index_f (l : layout) (ix : list Z) : res Z :=
  if negb (length ix =? ndim l)%nat then Err InvalidLayout
  else let* pos := index_loop ix (l_shape l) (l_stride l) (l_offset l) in
       if 0 <=? pos then Ok pos else Err ValueOutOfRange.

(** Layout::index_uncheck, layoutbase.rs:519-544.  The branches for 0..4 axes are unrollings of the generic loop. *)
Definition index_uncheck (l : layout) (ix : list nat) : Z := l_offset l + dot (l_stride l) ix.

(** loop of bounds_index, layoutbase.rs:250-259; [None] is the early return for a zero extent; reading
    [stride[i]] beyond the stride vector panics *)
Fixpoint bounds_loop (sh : list nat) (st : list Z) (mn mx : Z) : res (option (Z * Z)) :=
  match sh, st with
  | [], _ => Ok (Some (mn, mx))
  | d :: sh', [] => if (d =? 0)%nat then Ok None else Panic
  | d :: sh', t :: st' =>
    if (d =? 0)%nat then Ok None
    else if t >? 0 then bounds_loop sh' st' mn (mx + t * (Z.of_nat d - 1))
    else bounds_loop sh' st' (mn + t * (Z.of_nat d - 1)) mx
  end.
(** Layout::bounds_index, layoutbase.rs:237-262 *)
Definition bounds_index (l : layout) : res (Z * Z) :=
  if (ndim l =? 0)%nat then Ok (as_usize (l_offset l), as_usize (l_offset l) + 1)
  else let* b := bounds_loop (l_shape l) (l_stride l) (l_offset l) (l_offset l) in
       match b with
       | None => Ok (as_usize (l_offset l), as_usize (l_offset l))
       | Some (mn, mx) => if 0 <=? mn then Ok (mn, mx + 1) else Err ValueOutOfRange
       end.

(** loop of check_strides over the sorted (extent, |stride|) list, layoutbase.rs:303-318 *)
Fixpoint strides_loop (p : list (nat * Z)) (skip_zero : bool) (elem_cum : Z) : res unit :=
  match p with
  | [] => Ok tt
  | (d, t) :: r =>
    if (t =? 0) && skip_zero then strides_loop r skip_zero elem_cum
    else if elem_cum <? t then strides_loop r skip_zero (elem_cum + (Z.of_nat d - 1) * t)
    else Err InvalidLayout
  end.
(** axes with extent > 1, stably sorted by |stride|, layoutbase.rs:297-300 *)
Definition sorted_axes (l : layout) : list (nat * Z) :=
  map (fun p => (fst p, Z.abs (snd p)))
    (sort_by (fun a b => Z.abs (snd a) <=? Z.abs (snd b))
       (filter (fun p => (1 <? fst p)%nat) (combine (l_shape l) (l_stride l)))).
(** Layout::check_strides, layoutbase.rs:285-320 *)
Definition check_strides (l : layout) (skip_zero : bool) : res unit :=
  if negb (length (l_shape l) =? length (l_stride l))%nat then Err InvalidLayout
  else if (l_size l =? 0)%nat || (ndim l =? 0)%nat then Ok tt
  else strides_loop (sorted_axes l) skip_zero 0.

(** Layout::new, layoutbase.rs:396-404 *)
Definition layout_new (sh : list nat) (st : list Z) (off : Z) : res layout :=
  let l := mkLayout sh st off in
  let* _ := bounds_index l in
  let* _ := check_strides l true in
  Ok l.

(** Layout::transpose, layoutbase.rs:443-466 (permute_dims 471 is the same function) *)
Definition transpose (l : layout) (axes : list Z) : res layout :=
  if negb (length axes =? ndim l)%nat then Err InvalidLayout
  else let* ax := normalize_axes_index (AxVec axes) (ndim l) false false in
       Ok (mkLayout (map (fun a => nth a (l_shape l) 0%nat) ax) (map (fun a => nth a (l_stride l) 0) ax) (l_offset l)).

(** Layout::reverse_axes, layoutbase.rs:476-486 *)
Definition reverse_axes (l : layout) : layout := mkLayout (rev (l_shape l)) (rev (l_stride l)) (l_offset l).

(** Layout::swapaxes, layoutbase.rs:489-498 *)
Definition swapaxes (l : layout) (axis1 axis2 : Z) : res layout :=
  let* a1 := check_axis axis1 (ndim l) in
  let* a2 := check_axis axis2 (ndim l) in
  Ok (mkLayout (swap_at (l_shape l) a1 a2) (swap_at (l_stride l) a1 a2) (l_offset l)).

(** loop of PartialEq for Layout, layoutbase.rs:560-569 *)
Fixpoint eq_loop (sh1 sh2 : list nat) (st1 st2 : list Z) : bool :=
  match sh1, sh2 with
  | d1 :: sh1', d2 :: sh2' =>
    if negb (d1 =? d2)%nat then false
    else if negb (d1 =? 1)%nat && negb (d1 =? 0)%nat && negb (hd 0 st1 =? hd 0 st2) then false
    else eq_loop sh1' sh2' (tl st1) (tl st2)
  | _, _ => true
  end.
(** PartialEq for Layout, layoutbase.rs:547-572 *)
Definition layout_eqb (a b : layout) : bool :=
  if negb (ndim a =? ndim b)%nat then false
  else if negb (l_offset a =? l_offset b) then false
  else eq_loop (l_shape a) (l_shape b) (l_stride a) (l_stride b).

(** strides by cumulative products starting at [acc]; [g] is the per-extent factor
    ([.max(1)] for Ix<N>, identity for IxD) *)
Fixpoint cum_strides (g : nat -> nat) (s : list nat) (acc : Z) : list Z :=
  match s with
  | [] => []
  | d :: s' => acc :: cum_strides g s' (acc * Z.of_nat (g d))
  end.
Definition max1 (n : nat) : nat := Nat.max n 1.
(** stride_f_contig / stride_c_contig for Ix<N>, shape.rs:77-94 *)
Definition stride_f_fixed (s : list nat) : list Z := cum_strides max1 s 1.
Definition stride_c_fixed (s : list nat) : list Z := rev (cum_strides max1 (rev s) 1).
(** stride_f_contig / stride_c_contig for IxD, shape.rs:187-204 *)
Definition stride_f_dyn (s : list nat) : list Z := cum_strides (fun n => n) s 1.
Definition stride_c_dyn (s : list nat) : list Z := rev (cum_strides (fun n => n) (rev s) 1).

(** Whether a dimension type is [Ix<N>] or [IxD]. *)
Inductive dimty := Fixed | Dyn.
Definition stride_f_contig (k : dimty) := match k with Fixed => stride_f_fixed | Dyn => stride_f_dyn end.
Definition stride_c_contig (k : dimty) := match k with Fixed => stride_c_fixed | Dyn => stride_c_dyn end.

(** DimLayoutContigAPI::new_c_contig / new_f_contig / new_contig, layoutbase.rs:577-609; [c()] and [f()] use offset 0 *)
Definition new_c_contig (k : dimty) (s : list nat) (off : Z) : layout := mkLayout s (stride_c_contig k s) off.
Definition new_f_contig (k : dimty) (s : list nat) (off : Z) : layout := mkLayout s (stride_f_contig k s) off.
Definition new_contig (k : dimty) (s : list nat) (off : Z) (o : order) : layout :=
  match o with RowMajor => new_c_contig k s off | ColMajor => new_f_contig k s off end.

(** unravel_index_f for IxD and the generic branch for Ix<N>, shape.rs:130-137, 214-226; division by a zero extent panics *)
Fixpoint unravel_f_loop (s : list nat) (k : nat) : res (list nat) :=
  match s with
  | [] => Ok []
  | [_] => Ok [k]
  | d :: s' => if (d =? 0)%nat then Panic
               else let* r := unravel_f_loop s' (k / d)%nat in Ok ((k mod d)%nat :: r)
  end.
(** unravel_index_c for IxD and the generic branch for Ix<N>, shape.rs:169-176, 229-241: the same walk from the last axis *)
Definition unravel_c_loop (s : list nat) (k : nat) : res (list nat) :=
  let* r := unravel_f_loop (rev s) k in Ok (rev r).

Definition ndiv (a b : nat) : res nat := if (b =? 0)%nat then Panic else Ok (a / b)%nat.
Definition nmod (a b : nat) : res nat := if (b =? 0)%nat then Panic else Ok (a mod b)%nat.

(** unravel_index_f for Ix<N>, shape.rs:104-140, with its special branches for 0..4 axes *)
Definition unravel_f_fixed (s : list nat) (k : nat) : res (list nat) :=
  match s with
  | [] => Ok []
  | [_] => Ok [k]
  | [a; _] => let* i1 := ndiv k a in let* i0 := nmod k a in Ok [i0; i1]
  | [a; b; _] =>
    let* i2 := ndiv k (a * b) in
    let* k := nmod k (a * b) in
    let* i1 := ndiv k a in let* i0 := nmod k a in Ok [i0; i1; i2]
  | [a; b; c; _] =>
    let* i3 := ndiv k (a * b * c) in
    let* k := nmod k (a * b * c) in
    let* i2 := ndiv k (a * b) in
    let* k := nmod k (a * b) in
    let* i1 := ndiv k a in let* i0 := nmod k a in Ok [i0; i1; i2; i3]
  | _ => unravel_f_loop s k
  end.
(** unravel_index_c for Ix<N>, shape.rs:143-179 *)
Definition unravel_c_fixed (s : list nat) (k : nat) : res (list nat) :=
  match s with
  | [] => Ok []
  | [_] => Ok [k]
  | [_; b] => let* i0 := ndiv k b in let* i1 := nmod k b in Ok [i0; i1]
  | [_; b; c] =>
    let* i0 := ndiv k (b * c) in
    let* k := nmod k (b * c) in
    let* i1 := ndiv k c in let* i2 := nmod k c in Ok [i0; i1; i2]
  | [_; b; c; d] =>
    let* i0 := ndiv k (b * c * d) in
    let* k := nmod k (b * c * d) in
    let* i1 := ndiv k (c * d) in
    let* k := nmod k (c * d) in
    let* i2 := ndiv k d in let* i3 := nmod k d in Ok [i0; i1; i2; i3]
  | _ => unravel_c_loop s k
  end.
Definition unravel_index_f (k : dimty) := match k with Fixed => unravel_f_fixed | Dyn => unravel_f_loop end.
Definition unravel_index_c (k : dimty) := match k with Fixed => unravel_c_fixed | Dyn => unravel_c_loop end.

(** Drop the elements at two positions, keeping the order (loop of diagonal, layoutbase.rs:369-374). *)
Definition drop2 {A} (l : list A) (a1 a2 : nat) : list A :=
  map snd (filter (fun p => negb (fst p =? a1)%nat && negb (fst p =? a2)%nat) (combine (seq 0 (length l)) l)).

(** Layout::diagonal, layoutbase.rs:322-379.  [d_diag as usize] of a negative number wraps. *)
Definition diagonal (l : layout) (offset axis1 axis2 : option Z) : res layout :=
  if (ndim l <? 2)%nat then Err InvalidLayout else
  let offset := match offset with Some o => o | None => 0 end in
  let axis1 := match axis1 with Some o => o | None => 0 end in
  let axis2 := match axis2 with Some o => o | None => 1 end in
  let* a1 := check_axis axis1 (ndim l) in
  let* a2 := check_axis axis2 (ndim l) in
  let d1 := Z.of_nat (nth a1 (l_shape l) 0%nat) in
  let d2 := Z.of_nat (nth a2 (l_shape l) 0%nat) in
  let t1 := nth a1 (l_stride l) 0 in
  let t2 := nth a2 (l_stride l) 0 in
  let '(offset_diag, d_diag) :=
    if (- d1 + 1 <=? offset) && (offset <? 0) then
      (l_offset l + t1 * (- offset), as_usize (Z.min (d1 - (- offset)) d2))
    else if (0 <=? offset) && (offset <? d1) then
      (l_offset l + t2 * offset, as_usize (Z.min (d2 - offset) d1))
    else (l_offset l, 0) in
  layout_new (drop2 (l_shape l) a1 a2 ++ [Z.to_nat d_diag]) (drop2 (l_stride l) a1 a2 ++ [t1 + t2]) offset_diag.

(** Layouts the checked constructor Layout::new accepts. *)
Definition accepted (l : layout) : Prop := wf l /\ layout_new (l_shape l) (l_stride l) (l_offset l) = Ok l.
