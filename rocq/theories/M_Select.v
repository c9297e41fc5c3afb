(** Model of index_select, take and bool_select: rstsr-core/src/tensor/adv_indexing.rs and the kernels of
    rstsr-native-impl/src/cpu_serial/adv_indexing.rs and cpu_rayon/adv_indexing.rs. *)
From Verif Require Import Base Spec M_Layout M_Indexer M_Broadcast M_Rearr M_Iter M_Kernel M_Tensor.
Local Open Scope Z_scope.

(** the checks of the kernel, adv_indexing.rs (serial):28-32; [indices.iter().max().unwrap_or(&0)] is the fold *)
Definition select_checks (lc la : layout) (axis : nat) (indices : list nat) : res unit :=
  let* _ := check (ndim lc =? ndim la)%nat InvalidLayout in
  let* _ := check_axis (Z.of_nat axis) (ndim lc) in
  let* _ := check (nth axis (l_shape lc) 0 =? length indices)%nat InvalidLayout in
  check (fold_right Nat.max 0 indices <? nth axis (l_shape la) 0)%nat IndexError.
(** one write of the inner loops, adv_indexing.rs (serial):48-52, 57-62: the first form is for a stride of 1 *)
Definition select_write {T} (a : list T) (ta : Z) (indices : list nat) (c : list (option T)) (p : list Z) (i : nat) : res (list (option T)) :=
  match p with
  | [pc; pa] =>
    let from := if ta =? 1 then pa + Z.of_nat (nth i indices 0%nat) else pa + ta * Z.of_nat (nth i indices 0%nat) in
    cell2 a (fun _ y => Some y) c [pc + Z.of_nat i; from]
  | _ => Panic
  end.
(** the layouts without the axis, in a common order, adv_indexing.rs (serial):39-43 *)
Definition select_rest (lc la : layout) (axis : nat) : res (list layout) :=
  let* lc_rest := dim_chop lc (Z.of_nat axis) in
  let* la_rest := dim_chop la (Z.of_nat axis) in
  translate_to_col_major RowMajor [lc_rest; la_rest] OK.
(** index_select_cpu_serial, cpu_serial/adv_indexing.rs:3-71 *)
Definition select_kernel {T} (k : dimty) (c : list (option T)) (lc : layout) (a : list T) (la : layout) (axis : nat) (indices : list nat) : res (list (option T)) :=
  let* _ := select_checks lc la axis indices in
  let n := length indices in
  if nth axis (l_stride lc) 0 =? 1 then
    let* ls := select_rest lc la axis in
    dispatch k ls (fun c p => fold_res (fun c i => select_write a (nth axis (l_stride la) 0) indices c p i) (seq 0 n) c) c
  else
    fold_res (fun c i =>
      let* lc_selected := dim_select lc (Z.of_nat axis) (Z.of_nat i) in
      let* la_selected := dim_select la (Z.of_nat axis) (Z.of_nat (nth i indices 0%nat)) in
      assign k Some c lc_selected a la_selected) (seq 0 n) c.
(** the parallel loop over the axes that are not selected, cpu_rayon/adv_indexing.rs:40-66: the writes happen in some order.  (The
    loop writes through a raw pointer; a write outside the storage is [Panic] here.) *)
Definition select_par {T} (k : dimty) (ls : list layout) (a : list T) (ta : Z) (indices : list nat) (c : list (option T)) (r : res (list (option T))) : Prop :=
  match map_res (dispatch_positions k) ls with
  | Ok pss => in_some_order (fun c x => select_write a ta indices c (fst x) (snd x)) (flat_map (fun p => map (fun i => (p, i)) (seq 0 (length indices))) (zip_all pss)) c r
  | Err e => r = Err e
  | Panic => r = Panic
  end.
(** the loop over the indices, cpu_rayon/adv_indexing.rs:63-69 *)
Fixpoint select_loop_rayon {T} (k : dimty) (lc : layout) (a : list T) (la : layout) (axis : nat) (indices : list nat) (steps : list nat) (c : list (option T)) (r : res (list (option T))) : Prop :=
  match steps with
  | [] => r = Ok c
  | i :: steps' =>
    match (let* lc_selected := dim_select lc (Z.of_nat axis) (Z.of_nat i) in
           let* la_selected := dim_select la (Z.of_nat axis) (Z.of_nat (nth i indices 0%nat)) in Ok (lc_selected, la_selected)) with
    | Ok (lc_selected, la_selected) => exists rc, assign_rayon true k Some c lc_selected a la_selected rc /\
        match rc with
        | Ok c' => select_loop_rayon k lc a la axis indices steps' c' r
        | Err x => r = Err x
        | Panic => r = Panic
        end
    | Err x => r = Err x
    | Panic => r = Panic
    end
  end.
(** index_select_cpu_rayon, cpu_rayon/adv_indexing.rs:3-70 *)
Definition select_kernel_rayon {T} (pool : bool) (k : dimty) (c : list (option T)) (lc : layout) (a : list T) (la : layout) (axis : nat) (indices : list nat) (r : res (list (option T))) : Prop :=
  if negb pool then r = select_kernel k c lc a la axis indices else
  match select_checks lc la axis indices with
  | Ok _ =>
    if nth axis (l_stride lc) 0 =? 1 then
      match select_rest lc la axis with
      | Ok ls => select_par k ls a (nth axis (l_stride la) 0) indices c r
      | Err e => r = Err e
      | Panic => r = Panic
      end
    else select_loop_rayon k lc a la axis indices (seq 0 (length indices)) c r
  | Err e => r = Err e
  | Panic => r = Panic
  end.

(** the axis, the indices counted from the front, and the layout of the result, tensor/adv_indexing.rs:20-43 *)
Definition select_plan {T} (o : order) (t : tensor T) (axis : Z) (indices : list Z) : res (nat * list nat * layout) :=
  let* a := check_axis axis (ndim (t_layout t)) in
  let n := Z.of_nat (nth a (t_shape t) 0%nat) in
  let* ix := map_res (fun i => let j := if i <? 0 then n + i else i in
                               let* _ := check ((0 <=? j) && (j <? n)) IndexError in Ok (Z.to_nat j)) indices in
  Ok (a, ix, new_contig Dyn (upd (t_shape t) a (length ix)) 0 o).
(** index_select_f, tensor/adv_indexing.rs:10-48; take_f (68-77) is the same function with the arguments exchanged *)
Definition index_select_f {T} (k : dimty) (o : order) (t : tensor T) (axis : Z) (indices : list Z) : res (tensor T) :=
  let* p := select_plan o t axis indices in
  let '(a, ix, l) := p in
  let* c := select_kernel k (uninit T (Z.of_nat (l_size l))) l (t_data t) (t_layout t) a ix in
  let* d := assume_init c in
  tensor_new d l.
Definition take_f {T} (k : dimty) (o : order) (t : tensor T) (indices : list Z) (axis : Z) : res (tensor T) := index_select_f k o t axis indices.
(** the same on the rayon device *)
Definition index_select_rayon {T} (pool : bool) (k : dimty) (o : order) (t : tensor T) (axis : Z) (indices : list Z) (r : res (tensor T)) : Prop :=
  match select_plan o t axis indices with
  | Ok (a, ix, l) => exists rc, select_kernel_rayon pool k (uninit T (Z.of_nat (l_size l))) l (t_data t) (t_layout t) a ix rc /\
      r = let* c := rc in let* d := assume_init c in tensor_new d l
  | Err e => r = Err e
  | Panic => r = Panic
  end.
(** bool_select_f, tensor/adv_indexing.rs:147-166: enumerate and filter_map *)
Definition bool_select_f {T} (k : dimty) (o : order) (t : tensor T) (axis : Z) (mask : list bool) : res (tensor T) :=
  let indices := map fst (filter (fun p => snd p) (combine (seq 0 (length mask)) mask)) in
  index_select_f k o t axis (map Z.of_nat indices).
