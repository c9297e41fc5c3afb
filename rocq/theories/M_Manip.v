(** Model of the view-producing manipulation functions: rstsr-core/src/tensor/manipulation/{expand_dims,flip,moveaxis,squeeze,
    transpose}.rs, tensor/indexing.rs (slicing) and tensor/iterator_axes.rs.  All of them take the tensor apart into storage and
    layout, compute a new layout and put it back with TensorBase::new_unchecked; the functions here give that layout. *)
From Verif Require Import Base Spec M_Layout M_Indexer M_Broadcast M_Reshape M_Rearr M_Iter M_Tensor.
Local Open Scope Z_scope.

(** AsRef for AxesIndex, rstsr-common/src/axis_index.rs:11-19: AxesIndex::None panics *)
Definition axes_as_ref (axes : axes_index) : res (list Z) :=
  match axes with AxNone => Panic | AxVal a => Ok [a] | AxVec v => Ok v end.

(** into_expand_dims_f, expand_dims.rs:7-25 *)
Definition expand_dims (l : layout) (axes : axes_index) : res layout :=
  let* v := axes_as_ref axes in
  let* ax := normalize_axes_index axes (ndim l + length v) false true in
  fold_res (fun l a => dim_insert l (Z.of_nat a)) ax l.

(** into_flip_f, flip.rs:6-23 *)
Definition flip (l : layout) (axes : axes_index) : res layout :=
  let* ax := match axes with
             | AxNone => Ok (seq 0 (ndim l))
             | _ => normalize_axes_index axes (ndim l) false true
             end in
  fold_res (fun l a => dim_narrow l (Z.of_nat a) (mkSlice None None (Some (-1)))) ax l.

(** [order.insert(dest, src)]: panics when [dest] is past the end *)
Definition vec_insert {A} (l : list A) (i : nat) (x : A) : res (list A) :=
  if (i <=? length l)%nat then Ok (insert_at l i x) else Panic.
(** the permutation built by into_moveaxis_f, moveaxis.rs:32-42 *)
Definition moveaxis_order (nd : nat) (source destination : list nat) : res (list nat) :=
  let order := filter (fun i => negb (existsb (Nat.eqb i) source)) (seq 0 nd) in
  let pairs := sort_by (fun p q => (fst p <=? fst q)%nat) (combine destination source) in
  fold_res (fun order p => vec_insert order (fst p) (snd p)) pairs order.
(** into_moveaxis_f, moveaxis.rs:7-47 *)
Definition moveaxis (l : layout) (source destination : axes_index) : res layout :=
  let* src := normalize_axes_index source (ndim l) false false in
  let* dst := normalize_axes_index destination (ndim l) false false in
  let* _ := check (length src =? length dst)%nat InvalidValue in
  let* order := moveaxis_order (ndim l) src dst in
  transpose l (map Z.of_nat order).

(** [windows(2)] comparison of isize values *)
Fixpoint adj_eq_z (l : list Z) : bool :=
  match l with
  | x :: ((y :: _) as r) => (x =? y) || adj_eq_z r
  | _ => false
  end.
(** axes of into_squeeze_f, squeeze.rs:18-41: all unit axes in descending order, or the given ones made non-negative and sorted
    in descending order; only the first (largest) one is compared with 0 *)
Definition squeeze_axes (l : layout) (axes : axes_index) : res (list Z) :=
  match axes with
  | AxNone => Ok (map Z.of_nat (rev (filter (fun i => (nth i (l_shape l) 0 =? 1)%nat) (seq 0 (ndim l)))))
  | _ =>
    let* v := axes_as_ref axes in
    let ax := sort_by (fun a b => b <=? a) (map (fun v => if 0 <=? v then v else v + Z.of_nat (ndim l)) v) in
    let* _ := check (match ax with a :: _ => negb (a <? 0) | [] => true end) InvalidValue in
    let* _ := check (negb (adj_eq_z ax)) InvalidValue in
    Ok ax
  end.
(** into_squeeze_f, squeeze.rs:6-47 *)
Definition squeeze (l : layout) (axes : axes_index) : res layout :=
  let* ax := squeeze_axes l axes in
  fold_res dim_eliminate ax l.

(** into_transpose_f, transpose.rs:8-23 *)
Definition into_transpose (l : layout) (axes : axes_index) : res layout :=
  match axes with
  | AxNone => Ok (reverse_axes l)
  | _ => let* v := axes_as_ref axes in transpose l v
  end.

(** ** Histories of view operations on a tensor *)
Inductive view_op :=
| VSlice (ixs : list indexer)                    (* slice / i / into_slice, indexing.rs *)
| VTranspose (axes : axes_index)                 (* transpose / permute_dims, transpose.rs *)
| VReverse                                       (* reverse_axes / t, transpose.rs:294-301 *)
| VSwapaxes (a b : Z)                            (* swapaxes, transpose.rs:448-458 *)
| VMoveaxis (src dst : axes_index)               (* moveaxis *)
| VFlip (axes : axes_index)                      (* flip *)
| VExpand (axes : axes_index)                    (* expand_dims *)
| VSqueeze (axes : axes_index)                   (* squeeze *)
| VBroadcast (shape : list nat)                  (* broadcast_to, broadcast.rs *)
| VReshape (shape : list Z) (ord : order).       (* reshape with copy = Some(false), reshape.rs:113-163 *)
(** The layout a view operation gives; [o] is the device's default order. *)
Definition view_layout (o : order) (op : view_op) (l : layout) : res layout :=
  match op with
  | VSlice ixs => dim_slice l ixs
  | VTranspose axes => into_transpose l axes
  | VReverse => Ok (reverse_axes l)
  | VSwapaxes a b => swapaxes l a b
  | VMoveaxis s d => moveaxis l s d
  | VFlip axes => flip l axes
  | VExpand axes => expand_dims l axes
  | VSqueeze axes => squeeze l axes
  | VBroadcast shape => into_broadcast l shape o
  | VReshape shape ord =>
    let* s := reshape_substitute_negatives shape (l_size l) in
    let* v := layout_reshapeable l s ord in
    match v with Some l' => Ok l' | None => Err InvalidValue end
  end.
(** storage and layout are reassembled by TensorBase::new_unchecked, tensorbase.rs:107-109 *)
Definition view {T} (o : order) (op : view_op) (t : tensor T) : res (tensor T) :=
  let* l := view_layout o op (t_layout t) in Ok (mkTensor (t_data t) l).
(** a chain of view operations, each applied to the result of the previous one *)
Definition views {T} (o : order) (ops : list view_op) (t : tensor T) : res (tensor T) := fold_res (fun t op => view o op t) ops t.

(** ** Iteration over sub-views *)
(** struct IterAxesView, iterator_axes.rs:8-14: an iterator over the positions of the chosen axes and the layout of the views *)
Record axes_iter := mkAxesIter { ai_iter : iter_layout; ai_inner : layout }.
(** axes made non-negative, and the checks on them, iterator_axes.rs:85-101: no two are equal; only the first one is compared
    with 0; [axes_check.len() - 1] overflows when there are none *)
Definition axes_iter_axes (nd : nat) (axes : axes_index) : res (list Z) :=
  let* v := axes_as_ref axes in
  let ax := map (fun v => if 0 <=? v then v else v + Z.of_nat nd) v in
  let* _ := check (match ax with a :: _ => negb (a <? 0) | [] => true end) InvalidValue in
  match ax with
  | [] => Panic
  | _ => let* _ := check (negb (adj_eq_z (sort_by Z.leb ax))) InvalidValue in Ok ax
  end.
(** axes_iter_with_order_f, iterator_axes.rs:80-133 (axes_iter_mut_with_order_f 243-296 is the same function on a mutable view);
    [shape_full[idx as usize]] panics when out of range *)
Definition axes_iter_new (dflt : order) (l : layout) (axes : axes_index) (o : iter_order) : res axes_iter :=
  let* ax := axes_iter_axes (ndim l) axes in
  let* sh := map_res (zget (l_shape l)) ax in
  let* st := map_res (zget (l_stride l)) ax in
  let inner := filter (fun i => negb (existsb (Z.eqb (Z.of_nat i)) ax)) (seq 0 (ndim l)) in
  let* it := iter_layout_new dflt Dyn (mkLayout sh st (l_offset l)) o in
  Ok (mkAxesIter it (mkLayout (map (fun i => nth i (l_shape l) 0%nat) inner) (map (fun i => nth i (l_stride l) 0) inner) (l_offset l))).
(** [update_offset] and [view()], iterator_axes.rs:19-21, 31-36 *)
Definition with_offset (l : layout) (off : Z) : layout := mkLayout (l_shape l) (l_stride l) off.
Definition axes_iter_next (it : axes_iter) : res (option layout * axes_iter) :=
  let* p := il_next (ai_iter it) in
  Ok (option_map (with_offset (ai_inner it)) (fst p), mkAxesIter (snd p) (ai_inner it)).
Definition axes_iter_next_back (it : axes_iter) : res (option layout * axes_iter) :=
  let* p := il_next_back (ai_iter it) in
  Ok (option_map (with_offset (ai_inner it)) (fst p), mkAxesIter (snd p) (ai_inner it)).
(** the views handed out by [for v in it] *)
Definition axes_iter_views (it : axes_iter) : res (list layout) :=
  let* ps := collect (ai_iter it) in Ok (map (with_offset (ai_inner it)) ps).
(** [split_at], iterator_axes.rs:62-68, used by the parallel iterators *)
Definition axes_iter_split_at (it : axes_iter) (n : nat) : res (axes_iter * axes_iter) :=
  let* p := il_split_at Dyn (ai_iter it) n in Ok (mkAxesIter (fst p) (ai_inner it), mkAxesIter (snd p) (ai_inner it)).
(** a sequence of calls of next, next_back and split_at (keeping one half) on it *)
Fixpoint axes_iter_run (ops : list iop) (it : axes_iter) : res (list (option layout) * axes_iter) :=
  match ops with
  | [] => Ok ([], it)
  | Front :: r => let* p := axes_iter_next it in let* q := axes_iter_run r (snd p) in Ok (fst p :: fst q, snd q)
  | Back :: r => let* p := axes_iter_next_back it in let* q := axes_iter_run r (snd p) in Ok (fst p :: fst q, snd q)
  | KeepLeft n :: r => let* p := axes_iter_split_at it n in axes_iter_run r (fst p)
  | KeepRight n :: r => let* p := axes_iter_split_at it n in axes_iter_run r (snd p)
  end.
(** indexed_axes_iter_with_order_f, iterator_axes.rs:400-470: only orders C and F are accepted *)
Definition indexed_axes_new (dflt : order) (l : layout) (axes : axes_index) (o : iter_order) : res axes_iter :=
  match o with OC | OF => axes_iter_new dflt l axes o | _ => Err InvalidValue end.
(** next and next_back of IndexedIterAxesView, iterator_axes.rs:341-369: both read [index_start] *)
Definition indexed_axes_next (it : axes_iter) : res (option (list nat * layout) * axes_iter) :=
  let index := it_istart (il_iter (ai_iter it)) in
  let* p := axes_iter_next it in Ok (option_map (pair index) (fst p), snd p).
Definition indexed_axes_next_back (it : axes_iter) : res (option (list nat * layout) * axes_iter) :=
  let index := it_istart (il_iter (ai_iter it)) in
  let* p := axes_iter_next_back it in Ok (option_map (pair index) (fst p), snd p).
