(** Model of rstsr-common/src/layout/reshape.rs. *)
From Verif Require Import Base Spec M_Layout.
Local Open Scope Z_scope.

(** inner [while np != op], reshape.rs:41-59.  [ng]/[og] are the axes ni..nj / oi..oj taken so far, [nr]/[orr] the axes
    not yet taken.  Every iteration takes one axis, so the number of untaken axes is enough fuel. *)
Fixpoint match_group (fuel : nat) (np op : nat) (ng nr : list nat) (og orr : list (nat * Z))
  : option (list nat * list nat * list (nat * Z) * list (nat * Z)) :=
  if (np =? op)%nat then Some (ng, nr, og, orr) else
  match fuel with
  | O => None
  | S fuel =>
    if (np <? op)%nat then
      match nr with
      | [] => None
      | d :: nr' => match_group fuel (np * d) op (ng ++ [d]) nr' og orr
      end
    else
      match orr with
      | [] => None
      | (d, t) :: orr' => match_group fuel np (op * d) ng nr (og ++ [(d, t)]) orr'
      end
  end.
(** check whether the old axes of a group can be combined, reshape.rs:62-74 *)
Fixpoint combinable (f_order : bool) (og : list (nat * Z)) : bool :=
  match og with
  | (d, t) :: (((d', t') :: _) as r) =>
    (if f_order then t' =? Z.of_nat d * t else t =? Z.of_nat d' * t') && combinable f_order r
  | _ => true
  end.
(** new strides of one group, reshape.rs:77-88: column-major forward from the first old stride, row-major backward from
    the last old stride *)
Fixpoint strides_up (dims : list nat) (t : Z) : list Z :=
  match dims with
  | [] => []
  | d :: r => t :: strides_up r (t * Z.of_nat d)
  end.
Definition group_strides (f_order : bool) (ng : list nat) (og : list (nat * Z)) : list Z :=
  if f_order then strides_up ng (snd (hd (0%nat, 0) og))
  else rev (strides_up (rev ng) (snd (last og (0%nat, 0)))).
(** outer [while ni < newnd && oi < oldnd], reshape.rs:37-94, returning the strides set so far and the untaken new axes *)
Fixpoint reshape_groups (fuel : nat) (f_order : bool) (new : list nat) (old : list (nat * Z)) (acc : list Z)
  : option (list Z * list nat) :=
  match fuel, new, old with
  | S fuel, d :: nr, (od, ot) :: orr =>
    match match_group (length nr + length orr) d od [d] nr [(od, ot)] orr with
    | None => None
    | Some (ng, nr', og, orr') =>
      if combinable f_order og then reshape_groups fuel f_order nr' orr' (acc ++ group_strides f_order ng og)
      else None
    end
  | _, _, _ => Some (acc, new)
  end.
(** attempt_nocopy_reshape, reshape.rs:9-113 *)
Definition attempt_nocopy_reshape (old_dims : list nat) (old_strides : list Z) (newdims : list nat) (f_order : bool)
  : option (list Z) :=
  let old := filter (fun p => negb (fst p =? 1)%nat) (combine old_dims old_strides) in
  match reshape_groups (length newdims) f_order newdims old [] with
  | None => None
  | Some (acc, rest) =>
    let ni := length acc in
    let last_stride :=
      if (1 <=? ni)%nat then
        let stride := nth (ni - 1) acc 0 in
        if f_order then stride * Z.of_nat (nth (ni - 1) newdims 0%nat) else stride
      else 1 in
    Some (acc ++ repeat last_stride (length rest))
  end.

(** scan for negatives, reshape.rs:123-136: position of the single -1 *)
Fixpoint find_neg1 (shape : list Z) (i : nat) (found : option nat) : res (option nat) :=
  match shape with
  | [] => Ok found
  | v :: r =>
    if v =? -1 then match found with Some _ => Err InvalidValue | None => find_neg1 r (S i) (Some i) end
    else if v <? -1 then Err InvalidValue
    else find_neg1 r (S i) found
  end.
(** reshape_substitute_negatives, reshape.rs:120-152.  [size_in % 0] panics. *)
Definition reshape_substitute_negatives (shape : list Z) (size_in : nat) : res (list nat) :=
  let* f := find_neg1 shape 0 None in
  match f with
  | None => Ok (map Z.to_nat shape)
  | Some k =>
    let size_neg := fold_left (fun acc v => if v =? -1 then acc else acc * v) shape 1 in
    if size_neg =? 0 then Panic
    else let* _ := check (Z.rem (Z.of_nat size_in) size_neg =? 0) InvalidValue in
         Ok (map Z.to_nat (upd shape k (Z.quot (Z.of_nat size_in) size_neg)))
  end.

(** quick_check, reshape.rs:164-206.  Sizes are unbounded here: the overflow check of the product never fires (in the
    code it turns an overflow into the same InvalidValue error as a size mismatch). *)
Definition quick_check (shape : list nat) (l : layout) (o : order) : res (option layout) :=
  let* _ := check (size (l_shape l) =? size shape)%nat InvalidValue in
  if (size (l_shape l) =? 0)%nat || (size (l_shape l) =? 1)%nat then
    let* r := layout_new shape (repeat 1 (length shape)) (l_offset l) in Ok (Some r)
  else if list_eq_dec Nat.eq_dec shape (l_shape l) then Ok (Some l)
  else match o with
    | RowMajor => if c_contig l then Ok (Some (new_c_contig Dyn shape (l_offset l))) else Ok None
    | ColMajor => if f_contig l then Ok (Some (new_f_contig Dyn shape (l_offset l))) else Ok None
    end.
(** layout_reshapeable, reshape.rs:216-226 *)
Definition layout_reshapeable (l : layout) (shape : list nat) (o : order) : res (option layout) :=
  let* q := quick_check shape l o in
  match q with
  | Some r => Ok (Some r)
  | None =>
    match attempt_nocopy_reshape (l_shape l) (l_stride l) shape (order_eqb o ColMajor) with
    | Some st => Ok (Some (mkLayout shape st (l_offset l)))
    | None => Ok None
    end
  end.
(** reshapeable_without_copy, rstsr-core/src/tensor/manipulation/reshape.rs:71-84 *)
Definition reshapeable_without_copy (l : layout) (shape : list Z) (o : order) : res (option layout) :=
  let* s := reshape_substitute_negatives shape (size (l_shape l)) in layout_reshapeable l s o.
