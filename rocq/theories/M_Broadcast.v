(** Model of rstsr-common/src/layout/broadcast.rs and of the layout part of
    rstsr-core/src/tensor/manipulation/broadcast.rs. *)
From Verif Require Import Base Spec M_Layout.
Local Open Scope Z_scope.

(** enum BroadcastType, broadcast.rs:8-14 (Undefined is only the initial filler) *)
Inductive btype := Upcast | Expand | Preserve.

(** extent number [i] of [n] after right alignment, 1 when missing, broadcast.rs:46-50 *)
Definition aligned_ext (s : list nat) (n i : nat) : nat :=
  let k := Z.of_nat (length s + i) - Z.of_nat n in
  if 0 <=? k then nth (Z.to_nat k) s 0%nat else 1%nat.
(** body of the loop, broadcast.rs:45-82 *)
Definition broadcast_cell (s1 s2 : list nat) (n i : nat) : res (nat * btype * btype) :=
  let d1 := aligned_ext s1 n i in
  let d2 := aligned_ext s2 n i in
  let* c := match (d1 =? 1)%nat, (d2 =? 1)%nat with
    | true, true => Ok (1%nat, Preserve, Preserve)
    | false, true => Ok (d1, Preserve, Upcast)
    | true, false => Ok (d2, Upcast, Preserve)
    | false, false => let* _ := check (d1 =? d2)%nat InvalidLayout in Ok (d1, Preserve, Preserve)
    end in
  let '(d, t1, t2) := c in
  Ok (d, (if Z.of_nat (length s1 + i) - Z.of_nat n <? 0 then Expand else t1),
         (if Z.of_nat (length s2 + i) - Z.of_nat n <? 0 then Expand else t2)).
(** broadcast_shape, broadcast.rs:21-95.  The loop runs i = n-1 .. 0 and fills position i. *)
Definition broadcast_shape (s1 s2 : list nat) (o : order) : res (list nat * list btype * list btype) :=
  let flip {A} (l : list A) := match o with ColMajor => rev l | RowMajor => l end in
  let s1 := flip s1 in
  let s2 := flip s2 in
  let n := Nat.max (length s1) (length s2) in
  let* cells := map_res (broadcast_cell s1 s2 n) (rev (seq 0 n)) in
  let cells := rev cells in
  Ok (flip (map (fun c => fst (fst c)) cells), flip (map (fun c => snd (fst c)) cells), flip (map snd cells)).

(** The first component of broadcast_shape's result, broadcast.rs:21-95: the common shape alone. *)
Definition broadcast2 (o : order) (s1 s2 : list nat) : res (list nat) := let* p := broadcast_shape s1 s2 o in Ok (fst (fst p)).

(** broadcastable_from / broadcastable_to, broadcast.rs:101-149 *)
Definition broadcastable_from (s1 s2 : list nat) : bool :=
  let n := Nat.max (length s1) (length s2) in
  if negb (n =? length s1)%nat then false
  else forallb (fun i => let d1 := aligned_ext s1 n i in let d2 := aligned_ext s2 n i in
                         (d1 =? d2)%nat || (d2 =? 1)%nat) (rev (seq 0 n)).
Definition broadcastable_to (s1 s2 : list nat) : bool :=
  let n := Nat.max (length s1) (length s2) in
  if negb (n =? length s2)%nat then false
  else forallb (fun i => let d1 := aligned_ext s1 n i in let d2 := aligned_ext s2 n i in
                         (d1 =? d2)%nat || (d1 =? 1)%nat) (rev (seq 0 n)).

(** update_layout_by_shape for RowMajor, broadcast.rs:227-241; the slice [n - n_old..n] underflows when n < n_old *)
Definition update_layout_row (l : layout) (shape : list nat) (bt : list btype) : res layout :=
  let n := length shape in
  if (n <? ndim l)%nat then Panic else
  let stride := repeat 0 (n - ndim l) ++ l_stride l in
  Ok (mkLayout shape (map (fun p => match snd p with Preserve => fst p | _ => 0 end) (combine stride bt)) (l_offset l)).
(** update_layout_by_shape, broadcast.rs:203-242 *)
Definition update_layout_by_shape (l : layout) (shape : list nat) (bt : list btype) (o : order) : res layout :=
  match o with
  | RowMajor => update_layout_row l shape bt
  | ColMajor => let* r := update_layout_row (reverse_axes l) (rev shape) (rev bt) in Ok (reverse_axes r)
  end.
(** broadcast_layout, broadcast.rs:163-180 *)
Definition broadcast_layout (l1 l2 : layout) (o : order) : res (layout * layout) :=
  let* p := broadcast_shape (l_shape l1) (l_shape l2) o in
  let '(shape, t1, t2) := p in
  let* r1 := update_layout_by_shape l1 shape t1 o in
  let* r2 := update_layout_by_shape l2 shape t2 o in
  Ok (r1, r2).
(** broadcast_layout_to_first, broadcast.rs:189-201.  Conversion back to the first dimension type fails for a fixed
    rank that changed and always succeeds for IxD. *)
Definition broadcast_layout_to_first (k : dimty) (l1 l2 : layout) (o : order) : res (layout * layout) :=
  let* p := broadcast_layout l1 l2 o in
  match k with
  | Dyn => Ok p
  | Fixed => if (ndim (fst p) =? ndim l1)%nat then Ok p else Err InvalidLayout
  end.
(** size_non_broadcast, broadcast.rs:252-263 *)
Definition size_non_broadcast (l : layout) : nat :=
  if (l_size l =? 0)%nat then 0%nat
  else fold_left (fun acc p => if snd p =? 0 then acc else (acc * fst p)%nat) (combine (l_shape l) (l_stride l)) 1%nat.
(** is_broadcasted, broadcast.rs:268-270 *)
Definition is_broadcasted (l : layout) : bool := existsb (fun t => t =? 0) (l_stride l).

(** broadcast_shapes_f, rstsr-core manipulation/broadcast.rs (fn broadcast_shapes_f) *)
Definition broadcast_shapes (shapes : list (list nat)) (o : order) : res (list nat) :=
  match shapes with
  | [] => Ok []
  | s :: r => fold_res (fun acc sh => let* p := broadcast_shape sh acc o in Ok (fst (fst p))) r s
  end.
(** layout part of into_broadcast_f, rstsr-core manipulation/broadcast.rs (fn into_broadcast_f) *)
Definition into_broadcast (l : layout) (shape : list nat) (o : order) : res layout :=
  let* p := broadcast_shape (l_shape l) shape o in
  let '(shape', t1, _) := p in
  let* _ := check (if list_eq_dec Nat.eq_dec shape' shape then true else false) InvalidLayout in
  update_layout_by_shape l shape' t1 o.
