(** Model of rstsr-common/src/layout/rearrangement.rs. *)
From Verif Require Import Base Spec M_Layout M_Indexer M_Broadcast.
Local Open Scope Z_scope.

(** enum TensorIterOrder, rstsr-common/src/flags.rs *)
Inductive iter_order := OC | OF | OA | OK | OG | OB.

(** Result::unwrap: an error becomes a panic *)
Definition unwrap {A} (r : res A) : res A := match r with Err _ => Panic | _ => r end.

(** flipping of negative strides, rearrangement.rs:49-56 *)
Definition greedy_flip (l : layout) : res layout :=
  fold_res (fun l n => if nth n (l_stride l) 0 <? 0
                       then unwrap (dim_narrow l (Z.of_nat n) (mkSlice None None (Some (-1))))
                       else Ok l) (seq 0 (ndim l)) l.
(** the comparators, rearrangement.rs:67-78 (keep) and 82-93: true when [i1] does not compare Greater than [i2] *)
Definition greedy_le (keep : bool) (sh : list nat) (st : list Z) (i1 i2 : nat) : bool :=
  let b1 := (nth i1 sh 0%nat =? 1)%nat || (nth i1 st 0 =? 0) in
  let b2 := (nth i2 sh 0%nat =? 1)%nat || (nth i2 st 0 =? 0) in
  match b1, b2 with
  | true, true => (i1 <=? i2)%nat
  | true, false => keep
  | false, true => negb keep
  | false, false => Z.abs (nth i1 st 0) <=? Z.abs (nth i2 st 0)
  end.
(** broadcast axes collapsed for G order, rearrangement.rs:99-109 *)
Definition collapse (l : layout) : layout :=
  let p := map (fun p => if (fst p =? 1)%nat || (snd p =? 0) then (1%nat, 0) else p) (combine (l_shape l) (l_stride l)) in
  mkLayout (map fst p) (map snd p) (l_offset l).
(** greedy_layout, rearrangement.rs:36-113 *)
Definition greedy_layout (l : layout) (keep : bool) : res (layout * list nat) :=
  if (l_size l =? 0)%nat then Ok (l, seq 0 (ndim l)) else
  let* l := (if keep then greedy_flip l else Ok l) in
  let index := sort_by (greedy_le keep (l_shape l) (l_stride l)) (seq 0 (ndim l)) in
  let* l := unwrap (transpose l (map Z.of_nat index)) in
  Ok ((if keep then l else collapse l), index).

(** reversed_permute, rearrangement.rs:116-122 *)
Definition reversed_permute (indices : list nat) : list nat :=
  fold_left (fun acc p => upd acc (snd p) (fst p)) (combine (seq 0 (length indices)) indices) (repeat 0%nat (length indices)).

(** layout_for_array_copy, rearrangement.rs:125-152; [dflt] is the compile-time default order *)
Definition layout_for_array_copy (k : dimty) (dflt : order) (l : layout) (o : iter_order) : res layout :=
  let c := new_c_contig k (l_shape l) 0 in
  let f := new_f_contig k (l_shape l) 0 in
  match o with
  | OC => Ok c
  | OF => Ok f
  | OA => if c_contig l then Ok c else if f_contig l then Ok f else Ok (match dflt with RowMajor => c | ColMajor => f end)
  | OK => let* g := greedy_layout l true in
          transpose (new_f_contig k (l_shape (fst g)) 0) (map Z.of_nat (reversed_permute (snd g)))
  | _ => Err InvalidValue
  end.

(** closure fn_b, rearrangement.rs:171-188: shape[0] of a 0-dimensional layout panics *)
Definition sequential (l : layout) : res layout :=
  let* b := bounds_index l in
  let* _ := check (snd b - fst b =? Z.of_nat (l_size l)) InvalidLayout in
  match ndim l with
  | O => Panic
  | S n => Ok (mkLayout (l_size l :: repeat 1%nat n) (1 :: repeat (Z.of_nat (l_size l)) n) (l_offset l))
  end.
(** translate_to_col_major_unary, rearrangement.rs:165-214 *)
Definition translate_unary (dflt : order) (l : layout) (o : iter_order) : res layout :=
  match o with
  | OC => Ok (reverse_axes l)
  | OF => Ok l
  | OA => if c_contig l || f_contig l then sequential l
          else match c_prefer l, f_prefer l with
            | true, false => Ok (reverse_axes l)
            | false, true => Ok l
            | _, _ => match dflt with RowMajor => Ok (reverse_axes l) | ColMajor => Ok l end
            end
  | OK => let* g := greedy_layout l true in Ok (fst g)
  | OG => let* g := greedy_layout l false in Ok (fst g)
  | OB => sequential l
  end.

(** windows(2).all(same shape), rearrangement.rs:245 *)
Fixpoint same_shapes (ls : list layout) : bool :=
  match ls with
  | a :: ((b :: _) as r) => (if list_eq_dec Nat.eq_dec (l_shape a) (l_shape b) then true else false) && same_shapes r
  | _ => true
  end.
(** index of the last maximum (Iterator::max_by_key), rearrangement.rs:273 *)
Fixpoint last_max (l : list nat) (i best : nat) (v : nat) : nat :=
  match l with
  | [] => best
  | x :: r => if (v <=? x)%nat then last_max r (S i) i x else last_max r (S i) best v
  end.
Definition pick_reference (sizes : list nat) : nat :=
  match sizes with
  | [] => 0%nat
  | x :: r => if forallb (fun y => (y =? x)%nat) r then 0%nat else last_max r 1 0 x
  end.
(** translate_to_col_major, rearrangement.rs:232-282 *)
Definition translate_to_col_major (dflt : order) (ls : list layout) (o : iter_order) : res (list layout) :=
  match ls with
  | [] => Ok []
  | l0 :: _ =>
    let* _ := check (same_shapes ls) InvalidLayout in
    let single o := map_res (fun l => translate_unary dflt l o) ls in
    match o with
    | OC | OF | OB => single o
    | OA => let c := forallb c_contig ls in let f := forallb f_contig ls in
            if c || f then single OB
            else match c, f with
              | true, false => single OC
              | false, true => single OF
              | _, _ => match dflt with RowMajor => single OC | ColMajor => single OF end
              end
    | OK => let k := pick_reference (map size_non_broadcast ls) in
            let* g := greedy_layout (nth k ls l0) true in
            map_res (fun l => transpose l (map Z.of_nat (snd g))) ls
    | OG => Err InvalidValue
    end
  end.

(** translate_to_col_major_with_contig, rearrangement.rs:297-322 *)
Definition with_contig (ls : list layout) : list layout * nat :=
  match ls with
  | [] => ([], 0%nat)
  | l0 :: r =>
    let n := fold_left (fun m l => Nat.min m (ndim_of_f_contig l)) r (ndim_of_f_contig l0) in
    if (n =? 0)%nat then (ls, 0%nat)
    else (map (fun l => mkLayout (skipn n (l_shape l)) (skipn n (l_stride l)) (l_offset l)) ls, size (firstn n (l_shape l0)))
  end.

(** get_axes_composition, rearrangement.rs:335-372: axes of extent 1, axes of stride 0, contiguous axes, the rest *)
Fixpoint comp_c_loop (sh : list nat) (st : list Z) (remain : list nat) (cur : Z) : list nat :=
  match remain with
  | [] => []
  | i :: r => if nth i st 0 =? cur then i :: comp_c_loop sh st r (cur * Z.of_nat (nth i sh 0%nat)) else comp_c_loop sh st r cur
  end.
Definition mem (i : nat) (l : list nat) : bool := existsb (Nat.eqb i) l.
Definition get_axes_composition (l : layout) : list nat * list nat * list nat * list nat :=
  let sh := l_shape l in let st := l_stride l in
  let comp_i := filter (fun i => (nth i sh 0%nat =? 1)%nat) (seq 0 (ndim l)) in
  let comp_b := filter (fun i => negb (nth i sh 0%nat =? 1)%nat && (nth i st 0 =? 0)) (seq 0 (ndim l)) in
  let remain := filter (fun i => negb (mem i comp_i) && negb (mem i comp_b)) (seq 0 (ndim l)) in
  let remain := sort_by (fun i j => Z.abs (nth i st 0) <=? Z.abs (nth j st 0)) remain in
  let comp_c := comp_c_loop sh st remain 1 in
  (comp_i, comp_b, comp_c, filter (fun i => negb (mem i comp_c)) remain).
(** common prefix of the contiguous axes, rearrangement.rs:413-420 *)
Fixpoint common_prefix (a b : list nat) : list nat :=
  match a, b with
  | x :: a', y :: b' => if (x =? y)%nat then x :: common_prefix a' b' else []
  | _, _ => []
  end.
(** assignment of increasing strides, rearrangement.rs:430-435 *)
Fixpoint assign_strides (sh : list nat) (axes : list nat) (cur : Z) (st : list Z) : list Z :=
  match axes with
  | [] => st
  | i :: r => assign_strides sh r (cur * Z.of_nat (nth i sh 0%nat)) (upd st i cur)
  end.
Definition nonzero_or_1 (l : list Z) : Z := match find (fun x => negb (x =? 0)) l with Some x => x | None => 1 end.
(** strides of axes with extent 1, rearrangement.rs:436-453 *)
Definition unit_stride (o : order) (st : list Z) (i : nat) : list Z :=
  upd st i (nonzero_or_1 (match o with RowMajor => skipn i st | ColMajor => rev (firstn i st) end)).
(** get_layout_for_binary_op, rearrangement.rs:394-459 *)
Definition get_layout_for_binary_op (la lb : layout) (o : order) : res layout :=
  let* _ := check (if list_eq_dec Nat.eq_dec (l_shape la) (l_shape lb) then true else false) InvalidLayout in
  let '(a1, a0_a, ac_a, _) := get_axes_composition la in
  let '(_, a0_b, ac_b, _) := get_axes_composition lb in
  let a0_o := filter (fun i => mem i a0_b) a0_a in
  let ac_o := common_prefix ac_a ac_b in
  let ad_o := filter (fun i => negb (mem i a0_o) && negb (mem i ac_o) && negb (mem i a1)) (seq 0 (ndim la)) in
  let ad_o := match o with RowMajor => rev ad_o | ColMajor => ad_o end in
  let st := assign_strides (l_shape la) (ac_o ++ ad_o) 1 (repeat 0 (ndim la)) in
  Ok (mkLayout (l_shape la) (fold_left (unit_stride o) a1 st) 0).
