(** Model of matrix multiplication: rstsr-common/src/layout/matmul.rs, rstsr-native-impl/src/cpu_serial/matmul_naive.rs and
    cpu_rayon/matmul_naive.rs, rstsr-core/src/device_cpu_serial/linalg/matmul.rs and tensor/linalg/matmul.rs.
    The scalar operations are arbitrary functions: [mab] is TA * TB, [mba] is TB * TA, [mul] and [add] are those of TC. *)
From Verif Require Import Base Spec M_Layout M_Indexer M_Broadcast M_Rearr M_Iter M_Kernel M_Tensor.
Local Open Scope Z_scope.

(** enum MatMulType, matmul.rs:7-23 *)
Inductive matmul_type := InnerDot | GEMM22 | GEVM | GEMV | GEMM2X | GEMMX2 | GEMMXX.
(** struct LayoutMatMulConfig, matmul.rs:38-60 *)
Record matmul_config := mkConfig {
  mm_type : matmul_type; mm_lc : layout;
  mm_la_rest : option layout; mm_lb_rest : option layout; mm_lc_rest : option layout;
  mm_la : layout; mm_lb : layout; mm_lc_matmul : layout }.
Definition extent (l : layout) (k : nat) : nat := nth k (l_shape l) 0%nat.
Definition same_shape (a b : list nat) : bool := if list_eq_dec Nat.eq_dec a b then true else false.
(** the layout of a scalar, matmul.rs:80, 127 *)
Definition scalar_layout : layout := mkLayout [] [] 0.
(** layout_matmul_dyn_row_major, matmul.rs:121-272 *)
Definition layout_matmul_row (la lb : layout) : res matmul_config :=
  match ndim la, ndim lb with
  | O, _ | _, O => Err InvalidValue
  | 1%nat, 1%nat =>
    let* _ := check (same_shape (l_shape la) (l_shape lb)) InvalidLayout in
    Ok (mkConfig InnerDot scalar_layout None None None la lb scalar_layout)
  | 2%nat, 2%nat =>
    let* _ := check (extent la 1 =? extent lb 0)%nat InvalidLayout in
    let lc := new_c_contig Dyn [extent la 0; extent lb 1] 0 in
    Ok (mkConfig GEMM22 lc None None None la lb lc)
  | 1%nat, _ =>
    let* p := dim_split_at lb (-2) in
    let '(lb_rest, lb_m) := p in
    let* _ := check (extent la 0 =? extent lb_m 0)%nat InvalidLayout in
    let lc := new_c_contig Dyn (l_shape lb_rest ++ [extent lb_m 1]) 0 in
    let* q := dim_split_at lc (-1) in
    Ok (mkConfig GEVM lc None (Some lb_rest) (Some (fst q)) la lb_m (snd q))
  | _, 1%nat =>
    let* p := dim_split_at la (-2) in
    let '(la_rest, la_m) := p in
    let* _ := check (extent lb 0 =? extent la_m 1)%nat InvalidLayout in
    let lc := new_c_contig Dyn (l_shape la_rest ++ [extent la_m 0]) 0 in
    let* q := dim_split_at lc (-1) in
    Ok (mkConfig GEMV lc (Some la_rest) None (Some (fst q)) la_m lb (snd q))
  | 2%nat, _ =>
    let* p := dim_split_at lb (-2) in
    let '(lb_rest, lb_m) := p in
    let* _ := check (extent la 1 =? extent lb_m 0)%nat InvalidLayout in
    let lc := new_c_contig Dyn (l_shape lb_rest ++ [extent la 0; extent lb_m 1]) 0 in
    let* q := dim_split_at lc (-2) in
    Ok (mkConfig GEMM2X lc None (Some lb_rest) (Some (fst q)) la lb_m (snd q))
  | _, 2%nat =>
    let* p := dim_split_at la (-2) in
    let '(la_rest, la_m) := p in
    let* _ := check (extent la_m 1 =? extent lb 0)%nat InvalidLayout in
    let lc := new_c_contig Dyn (l_shape la_rest ++ [extent la_m 0; extent lb 1]) 0 in
    let* q := dim_split_at lc (-2) in
    Ok (mkConfig GEMMX2 lc (Some la_rest) None (Some (fst q)) la_m lb (snd q))
  | _, _ =>
    let* p := dim_split_at la (-2) in
    let '(la_rest, la_m) := p in
    let* q := dim_split_at lb (-2) in
    let '(lb_rest, lb_m) := q in
    let* _ := check (extent la_m 1 =? extent lb_m 0)%nat InvalidLayout in
    let* r := broadcast_layout la_rest lb_rest RowMajor in
    let lc := new_c_contig Dyn (l_shape (fst r) ++ [extent la_m 0; extent lb_m 1]) 0 in
    let* q := dim_split_at lc (-2) in
    (* the whole [la], not [la_m], matmul.rs:265 *)
    Ok (mkConfig GEMMXX lc (Some (fst r)) (Some (snd r)) (Some (fst q)) la lb_m (snd q))
  end.
(** layout_matmul_dyn_col_major, matmul.rs:423-455 *)
Definition layout_matmul_col (la lb : layout) : res matmul_config :=
  if (ndim la =? 0)%nat || (ndim lb =? 0)%nat then Err InvalidValue else
  let* cfg := layout_matmul_row (reverse_axes lb) (reverse_axes la) in
  Ok (mkConfig (mm_type cfg) (reverse_axes (mm_lc cfg))
        (option_map reverse_axes (mm_lb_rest cfg)) (option_map reverse_axes (mm_la_rest cfg)) (option_map reverse_axes (mm_lc_rest cfg))
        (reverse_axes (mm_lb cfg)) (reverse_axes (mm_la cfg)) (reverse_axes (mm_lc_matmul cfg))).
Definition layout_matmul_dyn (la lb : layout) (o : order) : res matmul_config :=
  match o with RowMajor => layout_matmul_row la lb | ColMajor => layout_matmul_col la lb end.
(** LayoutMatMulAPI::layout_matmul.  Fixed dimension types have their own rules 1 and 2, matmul.rs:74-119; all other pairs go
    through IxD, matmul.rs:457-566.  (A matrix product's strides are those of a fixed shape there.) *)
Definition layout_matmul (k : dimty) (la lb : layout) (o : order) : res matmul_config :=
  match k, ndim la, ndim lb with
  | Fixed, 1%nat, 1%nat =>
    let* _ := check (same_shape (l_shape la) (l_shape lb)) InvalidLayout in
    Ok (mkConfig InnerDot scalar_layout None None None la lb scalar_layout)
  | Fixed, 2%nat, 2%nat =>
    let* _ := check (extent la 1 =? extent lb 0)%nat InvalidLayout in
    let lc := new_contig Fixed [extent la 0; extent lb 1] 0 o in
    Ok (mkConfig GEMM22 lc None None None la lb lc)
  | _, _, _ => layout_matmul_dyn la lb o
  end.

(** layout_matmul_dyn_row_major_with_lc, matmul.rs:287-421 *)
Definition layout_matmul_with_lc (la lb lc : layout) : res matmul_config :=
  let na := ndim la in
  let nb := ndim lb in
  let nc := ndim lc in
  match na, nb with
  | O, _ | _, O => Err InvalidValue
  | 1%nat, 1%nat =>
    let* _ := check (same_shape (l_shape la) (l_shape lb)) InvalidLayout in
    let* _ := check (nc =? 0)%nat InvalidLayout in
    Ok (mkConfig InnerDot lc None None None la lb lc)
  | 2%nat, 2%nat =>
    let* _ := check (nc =? 2)%nat InvalidLayout in
    let* _ := check (extent la 1 =? extent lb 0)%nat InvalidLayout in
    Ok (mkConfig GEMM22 lc None None None la lb lc)
  | 1%nat, _ =>
    let* _ := check (nb =? nc + 1)%nat InvalidLayout in
    let* a := dim_split_at la (-1) in
    let* b := dim_split_at lb (-2) in
    let* c := dim_split_at lc (-1) in
    let* r := broadcast_layout_to_first Dyn (fst c) (fst a) RowMajor in
    let* am := dim_insert (snd a) 0 in
    let* cm := dim_insert (snd c) 0 in
    Ok (mkConfig GEVM lc (Some (snd r)) (Some (fst b)) (Some (fst c)) am (snd b) cm)
  | _, 1%nat =>
    let* _ := check (na =? nc + 1)%nat InvalidLayout in
    let* a := dim_split_at la (-2) in
    let* b := dim_split_at lb (-1) in
    let* c := dim_split_at lc (-1) in
    let* r := broadcast_layout_to_first Dyn (fst c) (fst b) RowMajor in
    let* bm := dim_insert (snd b) 1 in
    let* cm := dim_insert (snd c) 1 in
    Ok (mkConfig GEMV lc (Some (fst a)) (Some (snd r)) (Some (fst c)) (snd a) bm cm)
  | 2%nat, _ =>
    let* _ := check (nb =? nc)%nat InvalidLayout in
    let* a := dim_split_at la (-2) in
    let* b := dim_split_at lb (-2) in
    let* c := dim_split_at lc (-2) in
    let* r := broadcast_layout_to_first Dyn (fst c) (fst a) RowMajor in
    Ok (mkConfig GEMM2X lc (Some (snd r)) (Some (fst b)) (Some (fst c)) (snd a) (snd b) (snd c))
  | _, 2%nat =>
    let* _ := check (na =? nc)%nat InvalidLayout in
    let* a := dim_split_at la (-2) in
    let* b := dim_split_at lb (-2) in
    let* c := dim_split_at lc (-2) in
    let* r := broadcast_layout_to_first Dyn (fst c) (fst b) RowMajor in
    Ok (mkConfig GEMMX2 lc (Some (fst a)) (Some (snd r)) (Some (fst c)) (snd a) (snd b) (snd c))
  | _, _ =>
    let* _ := check (na =? nc)%nat InvalidLayout in
    let* _ := check (nb =? nc)%nat InvalidLayout in
    let* a := dim_split_at la (-2) in
    let* b := dim_split_at lb (-2) in
    let* c := dim_split_at lc (-2) in
    let* r := broadcast_layout_to_first Dyn (fst c) (fst a) RowMajor in
    let* s := broadcast_layout_to_first Dyn (fst c) (fst b) RowMajor in
    Ok (mkConfig GEMMXX lc (Some (snd r)) (Some (snd s)) (Some (fst c)) (snd a) (snd b) (snd c))
  end.

(** [c[idx] = beta * c[idx]], matmul_naive.rs:113-116 *)
Definition scale_cell {C} (mul : C -> C -> C) (beta : C) (c : list C) (ic : Z) : res (list C) :=
  let* x := zget c ic in zset c ic (mul beta x).
(** [c[idx_c] = alpha * (a[idx_a] * b[idx_b]) + c[idx_c]], matmul_naive.rs:122 *)
Definition accum_cell {A B C} (mab : A -> B -> C) (mul add : C -> C -> C) (a : list A) (b : list B) (alpha : C) (c : list C) (ic ia ib : Z) : res (list C) :=
  let* x := zget a ia in let* y := zget b ib in let* z := zget c ic in zset c ic (add (mul alpha (mab x y)) z).

(** gemm_naive_cpu_serial, matmul_naive.rs:79-128 *)
Definition gemm {A B C} (mab : A -> B -> C) (mul add : C -> C -> C) (c : list C) (lc : layout) (a : list A) (la : layout) (b : list B) (lb : layout) (alpha beta : C) : res (list C) :=
  let* _ := check (extent lc 0 =? extent la 0)%nat InvalidLayout in
  let* _ := check (extent la 1 =? extent lb 0)%nat InvalidLayout in
  let* _ := check (extent lc 1 =? extent lb 1)%nat InvalidLayout in
  fold_res (fun c i_m =>
    let* c := fold_res (fun c i_n => scale_cell mul beta c (index_uncheck lc [i_m; i_n])) (seq 0 (extent lc 1)) c in
    fold_res (fun c i_k =>
      fold_res (fun c i_n => accum_cell mab mul add a b alpha c (index_uncheck lc [i_m; i_n]) (index_uncheck la [i_m; i_k]) (index_uncheck lb [i_k; i_n]))
        (seq 0 (extent lc 1)) c) (seq 0 (extent la 1)) c) (seq 0 (extent lc 0)) c.
(** gemv_naive_cpu_serial, matmul_naive.rs:130-174 *)
Definition gemv {A B C} (mab : A -> B -> C) (mul add : C -> C -> C) (c : list C) (lc : layout) (a : list A) (la : layout) (b : list B) (lb : layout) (alpha beta : C) : res (list C) :=
  let* _ := check (extent lc 0 =? extent la 0)%nat InvalidLayout in
  let* _ := check (extent la 1 =? extent lb 0)%nat InvalidLayout in
  fold_res (fun c i_n =>
    let* c := scale_cell mul beta c (index_uncheck lc [i_n]) in
    fold_res (fun c i_k => accum_cell mab mul add a b alpha c (index_uncheck lc [i_n]) (index_uncheck la [i_n; i_k]) (index_uncheck lb [i_k]))
      (seq 0 (extent la 1)) c) (seq 0 (extent la 0)) c.
(** gevm_naive_cpu_serial, matmul_naive.rs:176-220 *)
Definition gevm {A B C} (mab : A -> B -> C) (mul add : C -> C -> C) (c : list C) (lc : layout) (a : list A) (la : layout) (b : list B) (lb : layout) (alpha beta : C) : res (list C) :=
  let* _ := check (extent lc 0 =? extent lb 1)%nat InvalidLayout in
  let* _ := check (extent la 0 =? extent lb 0)%nat InvalidLayout in
  fold_res (fun c i_n =>
    let* c := scale_cell mul beta c (index_uncheck lc [i_n]) in
    fold_res (fun c i_k => accum_cell mab mul add a b alpha c (index_uncheck lc [i_n]) (index_uncheck la [i_k]) (index_uncheck lb [i_k; i_n]))
      (seq 0 (extent lb 0)) c) (seq 0 (extent lb 1)) c.
(** inner_dot_naive_cpu_serial, matmul_naive.rs:222-242: reads c at its layout's position, writes c[0] *)
Definition inner_dot {A B C} (mab : A -> B -> C) (mul add : C -> C -> C) (c : list C) (lc : layout) (a : list A) (la : layout) (b : list B) (lb : layout) (alpha beta : C) : res (list C) :=
  let* _ := check (extent la 0 =? extent lb 0)%nat InvalidLayout in
  let* c0 := zget c (index_uncheck lc []) in
  let* s := fold_res (fun s i => let* x := zget a (index_uncheck la [i]) in let* y := zget b (index_uncheck lb [i]) in Ok (add s (mul alpha (mab x y))))
              (seq 0 (extent la 0)) (mul beta c0) in
  zset c 0 s.

(** Layout::set_offset *)
Definition at_offset (l : layout) (off : Z) : layout := mkLayout (l_shape l) (l_stride l) off.
Definition unwrap_opt {A} (o : option A) : res A := match o with Some x => Ok x | None => Panic end.
(** matmul_naive_cpu_serial, matmul_naive.rs:8-77.  (into_dim::<Ix2> of the matmul layouts fails unless they have two axes.
    The three batch iterators are collected before the first step; the code advances them together, which yields the same positions.) *)
Definition matmul_naive {A B C} (mab : A -> B -> C) (mul add : C -> C -> C) (c : list C) (lc : layout) (a : list A) (la : layout) (b : list B) (lb : layout) (alpha beta : C) : res (list C) :=
  match ndim la, ndim lb, ndim lc with
  | 1%nat, 1%nat, O => inner_dot mab mul add c lc a la b lb alpha beta
  | 2%nat, 2%nat, 2%nat => gemm mab mul add c lc a la b lb alpha beta
  | _, _, _ =>
    let* cfg := layout_matmul_with_lc la lb lc in
    let* _ := check ((ndim (mm_la cfg) =? 2) && (ndim (mm_lb cfg) =? 2) && (ndim (mm_lc_matmul cfg) =? 2))%nat InvalidLayout in
    let* ra := unwrap_opt (mm_la_rest cfg) in
    let* rb := unwrap_opt (mm_lb_rest cfg) in
    let* rc := unwrap_opt (mm_lc_rest cfg) in
    dispatch Dyn [ra; rb; rc] (fun c p =>
      match p with
      | [ia; ib; ic] => gemm mab mul add c (at_offset (mm_lc_matmul cfg) ic) a (at_offset (mm_la cfg) ia) b (at_offset (mm_lb cfg) ib) alpha beta
      | _ => Panic
      end) c
  end.
(** DeviceMatMulAPI::matmul of DeviceCpuSerial, device_cpu_serial/linalg/matmul.rs:22-43 *)
Definition device_matmul {A B C} (o : order) (mab : A -> B -> C) (mba : B -> A -> C) (mul add : C -> C -> C)
  (c : list C) (lc : layout) (a : list A) (la : layout) (b : list B) (lb : layout) (alpha beta : C) : res (list C) :=
  match o with
  | RowMajor => matmul_naive mab mul add c lc a la b lb alpha beta
  | ColMajor => matmul_naive mba mul add c (reverse_axes lc) b (reverse_axes lb) a (reverse_axes la) alpha beta
  end.
(** op_mutc_refa_refb_matmul (matmul_from, matmul_with_output), tensor/linalg/matmul.rs:45-70 *)
Definition op_mutc_matmul {A B C} (o : order) (mab : A -> B -> C) (mba : B -> A -> C) (mul add : C -> C -> C)
  (c : tensor C) (a : tensor A) (b : tensor B) (alpha beta : C) : res (tensor C) :=
  let* d := device_matmul o mab mba mul add (t_data c) (t_layout c) (t_data a) (t_layout a) (t_data b) (t_layout b) alpha beta in
  Ok (mkTensor d (t_layout c)).
(** op_refa_refb_matmul (matmul, %), tensor/linalg/matmul.rs:72-97.  The result's storage comes from [empty], creation.rs:202-207:
    [junk] stands for whatever the uninitialised cells hold. *)
Definition op_matmul {A B C} (k : dimty) (o : order) (mab : A -> B -> C) (mba : B -> A -> C) (mul add : C -> C -> C) (zero : C) (junk : nat -> C)
  (a : tensor A) (b : tensor B) (alpha : C) : res (tensor C) :=
  let* cfg := layout_matmul k (t_layout a) (t_layout b) o in
  let lc := mm_lc cfg in
  let* bd := bounds_index lc in
  op_mutc_matmul o mab mba mul add (mkTensor (map junk (seq 0 (Z.to_nat (snd bd)))) lc) a b alpha zero.

(** ** rayon versions *)
(** gemm_ix2_naive_cpu_rayon, cpu_rayon/matmul_naive.rs:12-55: one step per cell, in some order.  (The access to c is through a raw
    pointer; an access outside the storage is a panic here, undefined behaviour there.) *)
Definition gemm_cell {A B C} (mab : A -> B -> C) (mul add : C -> C -> C) (zero : C) (lc : layout) (a : list A) (la : layout) (b : list B) (lb : layout) (alpha beta : C)
  (c : list C) (ij : nat * nat) : res (list C) :=
  let ic := index_uncheck lc [fst ij; snd ij] in
  let* z := zget c ic in
  let* s := fold_res (fun s p => let* x := zget a (index_uncheck la [fst ij; p]) in let* y := zget b (index_uncheck lb [p; snd ij]) in Ok (add s (mab x y)))
              (seq 0 (extent la 1)) zero in
  zset c ic (add (mul z beta) (mul s alpha)).
Definition gemm_rayon {A B C} (mab : A -> B -> C) (mul add : C -> C -> C) (zero : C) (c : list C) (lc : layout) (a : list A) (la : layout) (b : list B) (lb : layout) (alpha beta : C)
  (r : res (list C)) : Prop :=
  if ((extent lc 0 =? extent la 0) && (extent la 1 =? extent lb 0) && (extent lc 1 =? extent lb 1))%nat
  then in_some_order (gemm_cell mab mul add zero lc a la b lb alpha beta) (list_prod (seq 0 (extent lc 0)) (seq 0 (extent lc 1))) c r
  else r = Err InvalidLayout.
(** inner_dot_naive_cpu_rayon, cpu_rayon/matmul_naive.rs:57-93: rayon's fold from zero over pieces of 0..n, joined by reduce_with;
    [t] is the way the scheduler split the range.  The cell of c is the one at its layout's offset, device_faer/matmul.rs (1, 1, 0). *)
Fixpoint par_fold {C X} (zero : C) (add : C -> C -> C) (g : C -> X -> res C) (t : split_tree) (xs : list X) : res C :=
  match t with
  | Leaf => fold_res g xs zero
  | Node n l r => let* x := par_fold zero add g l (firstn n xs) in let* y := par_fold zero add g r (skipn n xs) in Ok (add x y)
  end.
Definition inner_dot_rayon {A B C} (t : split_tree) (mab : A -> B -> C) (mul add : C -> C -> C) (zero : C) (c : list C) (lc : layout) (a : list A) (la : layout) (b : list B) (lb : layout) (alpha beta : C) : res (list C) :=
  let* _ := check (extent la 0 =? extent lb 0)%nat InvalidLayout in
  let* s := par_fold zero add (fun s i => let* x := zget a (index_uncheck la [i]) in let* y := zget b (index_uncheck lb [i]) in Ok (add s (mab x y))) t (seq 0 (extent la 0)) in
  let* z := zget c (l_offset lc) in
  zset c (l_offset lc) (add (mul s alpha) (mul z beta)).
