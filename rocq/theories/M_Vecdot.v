(** Model of rstsr-native-impl/src/cpu_serial/vecdot.rs, cpu_rayon/vecdot.rs and rstsr-core/src/tensor/linalg/vecdot.rs.
    [cmul x y] is x.ext_conj() * y.  The storage of c is a list of [option], [None] for memory that is not initialised; layouts inside
    the kernels are IxD. *)
From Verif Require Import Base Spec M_Layout M_Indexer M_Broadcast M_Rearr M_Iter M_Kernel M_Tensor M_Reduce Spec_Tensordot.
Local Open Scope Z_scope.

(** the axes to contract, tensor/linalg/vecdot.rs:182-221, 269-308 *)
Definition vecdot_axes (da db : nat) (axes : axes_pair) : res (list Z * list Z) :=
  let axes := match axes with PairNone => PairVal (-1) | _ => axes end in
  let n := Z.of_nat (Nat.min da db) in
  match axes with
  | PairNone => Panic
  | PairVal axis =>
    if axis <? 0 then
      let* _ := check ((- n <=? axis) && (axis <=? -1)) InvalidValue in
      Ok ([axis + Z.of_nat da], [axis + Z.of_nat db])
    else
      let* _ := check ((0 <=? axis) && (axis <? n)) InvalidValue in
      Ok ([axis], [axis])
  | PairOf a b =>
    let* pa := normalize_axes_index a da false false in
    let* pb := normalize_axes_index b db false false in
    let* _ := check (length pa =? length pb)%nat InvalidValue in
    Ok (map Z.of_nat pa, map Z.of_nat pb)
  end.

(** dim_split_axes, second component *)
Definition rest_layout (l : layout) (axes : list nat) : res layout :=
  let* p := dim_split_axes l (map Z.of_nat axes) in Ok (snd p).
(** the loop with [break] over three lists, vecdot.rs:61-67 *)
Fixpoint common_prefix3 (a b c : list nat) : list nat :=
  match a, b, c with
  | x :: a', y :: b', z :: c' => if ((x =? y) && (y =? z))%nat then x :: common_prefix3 a' b' c' else []
  | _, _, _ => []
  end.
(** the tuples of positions visited by layout_col_major_dim_dispatch_2 / _3 *)
Definition visited (ls : list layout) : res (list (list Z)) :=
  let* pss := map_res (dispatch_positions Dyn) ls in Ok (zip_all pss).
(** layouts used for the computation: summed axes of a and b, remaining axes of a and b broadcast to c, vecdot.rs:27-41 *)
Definition vecdot_layouts (o : order) (lc la lb : layout) (axes_a axes_b : list Z) : res (layout * layout * layout * layout) :=
  let* pa := dim_split_axes la axes_a in
  let '(las, lam) := pa in
  let* pb := dim_split_axes lb axes_b in
  let '(lbs, lbm) := pb in
  let* _ := check (if list_eq_dec Nat.eq_dec (l_shape las) (l_shape lbs) then true else false) InvalidLayout in
  let* p := broadcast_layout_to_first Dyn lc lam o in
  let '(lc_b, lam) := p in
  let* q := broadcast_layout_to_first Dyn lc_b lbm o in
  let '(lc_b, lbm) := q in
  let* _ := check (layout_eqb lc_b lc) InvalidLayout in
  Ok (las, lbs, lam, lbm).

Section Vecdot.
  Context {A B C : Type} (zero : C) (add : C -> C -> C) (cmul : A -> B -> C).
  (** acc + x.ext_conj() * y *)
  Definition add_pair (acc : C) (p : A * B) : C := add acc (cmul (fst p) (snd p)).

  (** the sum over the contracted axes in the first branch, vecdot.rs:87-103.  unrolled_binary_reduce, reduction.rs:93-140, is
      [unrolled_reduce] on the pairs of two slices of equal length. *)
  Definition sum_slices (a : list A) (b : list B) (offa offb : Z) (n : nat) (sp : list (list Z)) (ma mb : Z) : res C :=
    fold_res (fun acc p =>
      match p with
      | [sa; sb] =>
        let* xs := slice_get a (ma + sa - offa) n in
        let* ys := slice_get b (mb + sb - offb) n in
        Ok (add acc (unrolled_reduce zero add_pair add (combine xs ys)))
      | _ => Panic
      end) sp zero.
  (** the sums in the general branch: one contracted axis, lines 142-151 *)
  Definition sum_strided (a : list A) (b : list B) (n : nat) (ta tb ma mb : Z) : res C :=
    fold_res (fun acc i =>
      let* x := zget a (ma + Z.of_nat i * ta) in
      let* y := zget b (mb + Z.of_nat i * tb) in
      Ok (add_pair acc (x, y))) (seq 0 n) zero.
  (** and any other number, lines 153-160 *)
  Definition sum_cells (a : list A) (b : list B) (offa offb : Z) (sp : list (list Z)) (ma mb : Z) : res C :=
    fold_res (fun acc p =>
      match p with
      | [sa; sb] =>
        let* x := zget a (ma + sa - offa) in
        let* y := zget b (mb + sb - offb) in
        Ok (add_pair acc (x, y))
      | _ => Panic
      end) sp zero.
  (** [c[idx_c].write(val_c)] *)
  Definition put_sum (sum : Z -> Z -> res C) (c : list (option C)) (p : list Z) : res (list (option C)) :=
    match p with [ic; ia; ib] => let* v := sum ia ib in zset c ic (Some v) | _ => Panic end.

  (** [c[ic..ic + n]] set to zero, lines 119-121 *)
  Definition zero_slice (c : list (option C)) (ic : Z) (n : nat) : res (list (option C)) :=
    let* _ := slice_get c ic n in
    fold_res (fun c i => zset c (ic + Z.of_nat i) (Some zero)) (seq 0 n) c.
  (** c.write(c.assume_init_read() + val): reading memory that is not initialised is undefined behaviour ([Panic]) *)
  Definition add_cell (ic : Z) (c : list (option C)) (q : nat * (A * B)) : res (list (option C)) :=
    let* x := zget c (ic + Z.of_nat (fst q)) in
    match x with Some x => zset c (ic + Z.of_nat (fst q)) (Some (add_pair x (snd q))) | None => Panic end.
  (** one chunk, lines 122-135 *)
  Definition add_chunk (a : list A) (b : list B) (offa offb : Z) (sp : list (list Z)) (n : nat) (c : list (option C)) (ic ia ib : Z) : res (list (option C)) :=
    fold_res (fun c p =>
      match p with
      | [sa; sb] =>
        let* xs := slice_get a (ia + sa - offa) n in
        let* ys := slice_get b (ib + sb - offb) n in
        fold_res (add_cell ic) (combine (seq 0 n) (combine xs ys)) c
      | _ => Panic
      end) sp c.
  (** the body of the second branch, lines 117-138; CHUNK = 64 *)
  Definition add_slices (a : list A) (b : list B) (offa offb : Z) (sp : list (list Z)) (chunk n : nat) (c : list (option C)) (p : list Z) : res (list (option C)) :=
    match p with
    | [ic; ia; ib] =>
      let* c := zero_slice c ic n in
      fold_res (fun c q => add_chunk a b offa offb sp (snd q) c (ic + Z.of_nat (fst q)) (ia + Z.of_nat (fst q)) (ib + Z.of_nat (fst q))) (chunks chunk n) c
    | _ => Panic
    end.
  (** the same for one chunk, given by its start and length, cpu_rayon/vecdot.rs:117-140.  (Simplification: a chunk is set to zero by
      the step that handles it.) *)
  Definition add_slice_chunk (a : list A) (b : list B) (offa offb : Z) (sp : list (list Z)) (c : list (option C)) (p : list Z * (nat * nat)) : res (list (option C)) :=
    match fst p with
    | [ic; ia; ib] =>
      let s := Z.of_nat (fst (snd p)) in
      let* c := zero_slice c (ic + s) (snd (snd p)) in
      add_chunk a b offa offb sp (snd (snd p)) c (ic + s) (ia + s) (ib + s)
    | _ => Panic
    end.

  (** The three branches: what is to be done, as a list of positions and a body for each. *)
  Inductive plan :=
  | Values (tasks : list (list Z)) (sum : Z -> Z -> res C)
  | Slices (tasks : list (list Z)) (sp : list (list Z)) (n : nat).
  (** vecdot.rs:43-162 up to the execution *)
  Definition vecdot_plan (a : list A) (b : list B) (offa offb : Z) (lc las lbs lam lbm : layout) : res plan :=
    let '(_, _, asc_a, _) := get_axes_composition las in
    let '(_, _, asc_b, _) := get_axes_composition lbs in
    let asc := common_prefix asc_a asc_b in
    let '(_, _, amc_a, _) := get_axes_composition lam in
    let '(_, _, amc_b, _) := get_axes_composition lbm in
    let '(_, _, amc_c, _) := get_axes_composition lc in
    let amc := common_prefix3 amc_a amc_b amc_c in
    match asc, amc with
    | _ :: _, _ =>
      let* n := product_at (l_shape las) asc in
      let* lasd := rest_layout las asc in
      let* lbsd := rest_layout lbs asc in
      let* ls := translate_to_col_major RowMajor [lasd; lbsd] OK in
      let* lm := translate_to_col_major RowMajor [lc; lam; lbm] OK in
      let* sp := visited ls in
      let* tasks := visited lm in
      Ok (Values tasks (sum_slices a b offa offb n sp))
    | [], _ :: _ =>
      let* n := product_at (l_shape lam) amc in
      let* ls := translate_to_col_major RowMajor [las; lbs] OK in
      let* lamd := rest_layout lam amc in
      let* lbmd := rest_layout lbm amc in
      let* lcd := rest_layout lc amc in
      let* lm := translate_to_col_major RowMajor [lcd; lamd; lbmd] OK in
      let* sp := visited ls in
      let* tasks := visited lm in
      Ok (Slices tasks sp n)
    | [], [] =>
      let* tasks := visited [lc; lam; lbm] in
      match l_shape las, l_stride las, l_stride lbs with
      | [n], [ta], [tb] => Ok (Values tasks (sum_strided a b n ta tb))
      | [n], _, _ => Panic
      | _, _, _ => let* sp := visited [las; lbs] in Ok (Values tasks (sum_cells a b offa offb sp))
      end
    end.
  (** vecdot_naive_cpu_serial, vecdot.rs:6-163.  (Simplification: the inner positions are listed once instead of at every outer step.) *)
  Definition vecdot_serial (o : order) (c : list (option C)) (lc : layout) (a : list A) (la : layout) (b : list B) (lb : layout) (axes_a axes_b : list Z) : res (list (option C)) :=
    let* ls := vecdot_layouts o lc la lb axes_a axes_b in
    let '(las, lbs, lam, lbm) := ls in
    let* p := vecdot_plan a b (l_offset la) (l_offset lb) lc las lbs lam lbm in
    match p with
    | Values tasks sum => fold_res (put_sum sum) tasks c
    | Slices tasks sp n => fold_res (add_slices a b (l_offset la) (l_offset lb) sp 64 n) tasks c
    end.
  (** vecdot_naive_cpu_rayon, cpu_rayon/vecdot.rs:7-176: the steps happen in some order; [switch] is PARALLEL_SWITCH = 512 *)
  Definition vecdot_rayon (switch : nat) (pool : bool) (o : order) (c : list (option C)) (lc : layout) (a : list A) (la : layout) (b : list B) (lb : layout)
    (axes_a axes_b : list Z) (r : res (list (option C))) : Prop :=
    if (Nat.max (l_size la) (l_size lb) <? switch)%nat || negb pool then r = vecdot_serial o c lc a la b lb axes_a axes_b
    else match (let* ls := vecdot_layouts o lc la lb axes_a axes_b in
                let '(las, lbs, lam, lbm) := ls in vecdot_plan a b (l_offset la) (l_offset lb) lc las lbs lam lbm) with
         | Ok (Values tasks sum) => in_some_order (put_sum sum) tasks c r
         | Ok (Slices tasks sp n) => in_some_order (add_slice_chunk a b (l_offset la) (l_offset lb) sp) (flat_map (fun p => map (pair p) (chunks 64 n)) tasks) c r
         | Err e => r = Err e
         | Panic => r = Panic
         end.

  (** the part of vecdot_f before the kernel, tensor/linalg/vecdot.rs:175-241, and the storage it allocates *)
  Definition vecdot_prepare (o : order) (a : tensor A) (b : tensor B) (axes : axes_pair) : res (list Z * list Z * layout * list (option C)) :=
    let* p := vecdot_axes (ndim (t_layout a)) (ndim (t_layout b)) axes in
    let '(axes_a, axes_b) := p in
    let* sa := dim_split_axes (t_layout a) axes_a in
    let* sb := dim_split_axes (t_layout b) axes_b in
    let* _ := check (if list_eq_dec Nat.eq_dec (l_shape (fst sa)) (l_shape (fst sb)) then true else false) InvalidLayout in
    let* m := broadcast_layout (snd sa) (snd sb) o in
    let* lc := get_layout_for_binary_op (fst m) (snd m) o in
    let* bd := bounds_index lc in
    Ok (axes_a, axes_b, lc, uninit C (snd bd)).
  (** vecdot_f, tensor/linalg/vecdot.rs:160-244, with TensorIterOrder::default() = K; [o] is the default order of the device *)
  Definition vecdot (o : order) (a : tensor A) (b : tensor B) (axes : axes_pair) : res (tensor C) :=
    let* p := vecdot_prepare o a b axes in
    let '(axes_a, axes_b, lc, c) := p in
    let* c := vecdot_serial o c lc (t_data a) (t_layout a) (t_data b) (t_layout b) axes_a axes_b in
    let* c := assume_init c in
    tensor_new c lc.
  (** the same on the rayon device *)
  Definition vecdot_on_rayon (switch : nat) (pool : bool) (o : order) (a : tensor A) (b : tensor B) (axes : axes_pair) (r : res (tensor C)) : Prop :=
    match vecdot_prepare o a b axes with
    | Ok (axes_a, axes_b, lc, c) => exists c', vecdot_rayon switch pool o c lc (t_data a) (t_layout a) (t_data b) (t_layout b) axes_a axes_b c' /\
        r = (let* c := c' in let* c := assume_init c in tensor_new c lc)
    | Err e => r = Err e
    | Panic => r = Panic
    end.
  (** vecdot_from_f, tensor/linalg/vecdot.rs:249-329: c already has elements *)
  Definition vecdot_from (o : order) (c : tensor C) (a : tensor A) (b : tensor B) (axes : axes_pair) : res (tensor C) :=
    let* p := vecdot_axes (ndim (t_layout a)) (ndim (t_layout b)) axes in
    let '(axes_a, axes_b) := p in
    let* sa := dim_split_axes (t_layout a) axes_a in
    let* sb := dim_split_axes (t_layout b) axes_b in
    let* _ := check (if list_eq_dec Nat.eq_dec (l_shape (fst sa)) (l_shape (fst sb)) then true else false) InvalidLayout in
    let* s := broadcast_shapes [l_shape (snd sa); l_shape (snd sb)] o in
    let* _ := check (if list_eq_dec Nat.eq_dec s (t_shape c) then true else false) InvalidLayout in
    let* d := vecdot_serial o (map Some (t_data c)) (t_layout c) (t_data a) (t_layout a) (t_data b) (t_layout b) axes_a axes_b in
    let* d := assume_init d in
    Ok (mkTensor d (t_layout c)).
End Vecdot.
