(** Model of triangular packing, tril/triu and the blocked order change: rstsr-native-impl/src/cpu_serial/op_tri.rs, transpose.rs and their
    rayon versions, rstsr-core/src/device_cpu_serial/operators/op_tri.rs, tensor/operators/op_tri.rs, tensor/creation.rs (tril, triu).
    Positions are isize values used as usize: a negative one is out of range.  [MaybeUninit<T>] is [option T]. *)
From Verif Require Import Base Spec Spec_Tri M_Layout M_Indexer M_Broadcast M_Rearr M_Iter M_Kernel M_Tensor M_Matmul.
Local Open Scope Z_scope.

(** FlagUpLo::flip, rstsr-common/src/flags.rs *)
Definition flip_uplo (u : uplo) : uplo := match u with Upper => Lower | Lower => Upper end.
(** j in lo..hi *)
Definition range (lo hi : nat) : list nat := seq lo (hi - lo).

(** ** pack *)
(** one step of the inner loops of pack: a[idx_a] = b[i, j]; idx_a += 1.  The state is the output and the counter. *)
Definition pack_cell {T} (pa : nat -> Z) (b : list T) (pb : nat -> nat -> Z) (i : nat) (s : list (option T) * nat) (j : nat) : res (list (option T) * nat) :=
  let* x := zget b (pb i j) in
  let* a := zset (fst s) (pa (snd s)) (Some x) in
  Ok (a, S (snd s)).
(** inner_pack_tril_c_contig, op_tri.rs:7-23.  The slices are cut off row by row: [pa], [pb] are where the rest of each begins. *)
Definition pack_tril_contig {T} (a : list (option T)) (offset_a : Z) (b : list T) (offset_b : Z) (n : nat) : res (list (option T)) :=
  if (0 <=? offset_a) && (offset_a <=? Z.of_nat (length a)) && (0 <=? offset_b) && (offset_b <=? Z.of_nat (length b)) then
    let* s := fold_res (fun s i =>
        let '(a, pa, pb) := s in
        if (pa + Z.of_nat (i + 1) <=? Z.of_nat (length a)) && (pb + Z.of_nat n <=? Z.of_nat (length b)) then
          let* a := fold_res (fun a t => let* x := zget b (pb + Z.of_nat t) in zset a (pa + Z.of_nat t) (Some x)) (seq 0 (Nat.min (i + 1) n)) a in
          Ok (a, pa + Z.of_nat (i + 1), pb + Z.of_nat n)
        else Panic) (seq 0 n) (a, offset_a, offset_b) in
    Ok (fst (fst s))
  else Panic.
(** inner_pack_tril_general, op_tri.rs:25-39 *)
Definition pack_tril_general {T} (a : list (option T)) (la : layout) (b : list T) (lb : layout) (n : nat) : res (list (option T)) :=
  let* s := fold_res (fun s i => fold_res (pack_cell (fun p => index_uncheck la [p]) b (fun i j => index_uncheck lb [i; j]) i) (range 0 (i + 1)) s) (seq 0 n) (a, 0%nat) in
  Ok (fst s).
(** inner_pack_triu_c_contig, op_tri.rs:41-55 *)
Definition pack_triu_contig {T} (a : list (option T)) (offset_a : Z) (b : list T) (offset_b : Z) (n : nat) : res (list (option T)) :=
  if (0 <=? offset_a) && (offset_a <=? Z.of_nat (length a)) && (0 <=? offset_b) && (offset_b <=? Z.of_nat (length b)) then
    let* s := fold_res (fun s i => fold_res (pack_cell (fun p => offset_a + Z.of_nat p) b (fun i j => offset_b + Z.of_nat (i * n + j)) i) (range i n) s) (seq 0 n) (a, 0%nat) in
    Ok (fst s)
  else Panic.
(** inner_pack_triu_general, op_tri.rs:57-71 *)
Definition pack_triu_general {T} (a : list (option T)) (la : layout) (b : list T) (lb : layout) (n : nat) : res (list (option T)) :=
  let* s := fold_res (fun s i => fold_res (pack_cell (fun p => index_uncheck la [p]) b (fun i j => index_uncheck lb [i; j]) i) (range i n) s) (seq 0 n) (a, 0%nat) in
  Ok (fst s).
(** the match on (uplo, c_contig), op_tri.rs:107-144 *)
Definition pack_one {T} (u : uplo) (contig : bool) (la lb : layout) (b : list T) (n : nat) (a : list (option T)) (p : list Z) : res (list (option T)) :=
  match p with
  | [oa; ob] =>
    match u, contig with
    | Upper, true => pack_triu_contig a oa b ob n
    | Upper, false => pack_triu_general a (at_offset la oa) b (at_offset lb ob) n
    | Lower, true => pack_tril_contig a oa b ob n
    | Lower, false => pack_tril_general a (at_offset la oa) b (at_offset lb ob) n
    end
  | _ => Panic
  end.
(** what pack_tri_cpu_serial / _rayon prepare: the positions of the matrices, and the step for one of them, op_tri.rs:88-105 *)
Definition pack_tri_setup {T} (la : layout) (b : list T) (lb : layout) (u : uplo) : res (list (list Z) * (list (option T) -> list Z -> res (list (option T)))) :=
  let* sa := dim_split_at la (-1) in
  let* sb := dim_split_at lb (-2) in
  let* full := translate_to_col_major RowMajor [fst sa; fst sb] OK in
  let* pss := map_res (dispatch_positions Dyn) full in
  Ok (zip_all pss, pack_one u (c_contig (snd sa) && c_contig (snd sb)) (snd sa) (snd sb) b (extent (snd sb) 0)).
(** pack_tri_cpu_serial, op_tri.rs:73-146.  (The iterators are collected before the first step; the ranks of the inner layouts are 1 and 2,
    so to_dim cannot fail.) *)
Definition pack_tri_kernel {T} (a : list (option T)) (la : layout) (b : list T) (lb : layout) (u : uplo) : res (list (option T)) :=
  let* s := pack_tri_setup la b lb u in fold_res (snd s) (fst s) a.
(** pack_tri_cpu_rayon, cpu_rayon/op_tri.rs:7-101: the matrices in some order *)
Definition pack_tri_rayon {T} (a : list (option T)) (la : layout) (b : list T) (lb : layout) (u : uplo) (r : res (list (option T))) : Prop :=
  match pack_tri_setup la b lb u with
  | Ok s => in_some_order (snd s) (fst s) a r
  | Err e => r = Err e
  | Panic => r = Panic
  end.
(** OpPackTriAPI::pack_tri, device_cpu_serial/operators/op_tri.rs:8-26 *)
Definition device_pack_tri {T} (o : order) (a : list (option T)) (la : layout) (b : list T) (lb : layout) (u : uplo) : res (list (option T)) :=
  match o with
  | RowMajor => pack_tri_kernel a la b lb u
  | ColMajor => pack_tri_kernel a (reverse_axes la) b (reverse_axes lb) (flip_uplo u)
  end.
(** choice of the output layout, tensor/operators/op_tri.rs:57-64, 140-147 *)
Definition tri_out_layout (o : order) (lb : layout) (s : list nat) : layout :=
  match c_prefer lb, f_prefer lb with
  | true, false => new_c_contig Dyn s 0
  | false, true => new_f_contig Dyn s 0
  | _, _ => match o with RowMajor => new_c_contig Dyn s 0 | ColMajor => new_f_contig Dyn s 0 end
  end.
(** TensorAny::pack_tri_f, tensor/operators/op_tri.rs:13-72 *)
Definition pack_tri_f {T} (o : order) (t : tensor T) (u : uplo) : res (tensor T) :=
  let lb := t_layout t in
  let* s := match o with
            | RowMajor => let* p := dim_split_at lb (-2) in
                          let* _ := check (extent (snd p) 0 =? extent (snd p) 1)%nat InvalidLayout in
                          let n := extent (snd p) 0 in Ok (l_shape (fst p) ++ [(n * (n + 1) / 2)%nat])
            | ColMajor => let* p := dim_split_at lb 2 in
                          let* _ := check (extent (fst p) 0 =? extent (fst p) 1)%nat InvalidLayout in
                          let n := extent (fst p) 0 in Ok ((n * (n + 1) / 2)%nat :: l_shape (snd p))
            end in
  let la := tri_out_layout o lb s in
  let* bd := bounds_index la in
  let* a := device_pack_tri o (uninit T (snd bd)) la (t_data t) lb u in
  let* a := assume_init a in
  tensor_new a la.

(** ** unpack *)
Section Unpack.
  Context {T : Type} (zero : T) (conj opp : T -> T).
  (** what is written at the mirrored place *)
  Definition mirror (s : symm) (x : T) : option T :=
    match s with Sy => Some x | He => Some (conj x) | Ay => Some (opp x) | Ah => Some (opp (conj x)) | NoSymm => None end.
  (** body of the inner loops, op_tri.rs:170-172, 179-181, 188-190, 199-201, 210-211, and the same lines of the other three kernels:
      a[i, j] = b[idx_b]; a[j, i] = ...; idx_b += 1 *)
  Definition unpack_cell (sy : symm) (pa : nat -> nat -> Z) (b : list T) (pb : nat -> Z) (i : nat) (s : list (option T) * nat) (j : nat) : res (list (option T) * nat) :=
    let* x := zget b (pb (snd s)) in
    let* a := zset (fst s) (pa i j) (Some x) in
    let* a := match mirror sy x with Some y => zset a (pa j i) (Some y) | None => Ok a end in
    Ok (a, S (snd s)).
  (** a[i, i] = 0; idx_b += 1, op_tri.rs:192-193 *)
  Definition unpack_diag (pa : nat -> nat -> Z) (i : nat) (s : list (option T) * nat) : res (list (option T) * nat) :=
    let* a := zset (fst s) (pa i i) (Some zero) in Ok (a, S (snd s)).
  Definition anti (sy : symm) : bool := match sy with Ay | Ah => true | _ => false end.
  (** the loops of inner_unpack_tril_*, op_tri.rs:166-215, 230-295 *)
  Definition unpack_tril_loop (sy : symm) (pa : nat -> nat -> Z) (b : list T) (pb : nat -> Z) (n : nat) (a : list (option T)) : res (list (option T)) :=
    let* s := fold_res (fun s i =>
      if anti sy then let* s := fold_res (unpack_cell sy pa b pb i) (range 0 i) s in unpack_diag pa i s
      else fold_res (unpack_cell sy pa b pb i) (range 0 (i + 1)) s) (seq 0 n) (a, 0%nat) in
    Ok (fst s).
  (** the loops of inner_unpack_triu_*, op_tri.rs:312-361, 376-441 *)
  Definition unpack_triu_loop (sy : symm) (pa : nat -> nat -> Z) (b : list T) (pb : nat -> Z) (n : nat) (a : list (option T)) : res (list (option T)) :=
    let* s := fold_res (fun s i =>
      if anti sy then let* s := unpack_diag pa i s in fold_res (unpack_cell sy pa b pb i) (range (i + 1) n) s
      else fold_res (unpack_cell sy pa b pb i) (range i n) s) (seq 0 n) (a, 0%nat) in
    Ok (fst s).
  Definition unpack_loop (u : uplo) := match u with Lower => unpack_tril_loop | Upper => unpack_triu_loop end.
  (** inner_unpack_tril_c_contig / _triu_c_contig, op_tri.rs:152-216, 298-362 *)
  Definition unpack_contig (u : uplo) (sy : symm) (a : list (option T)) (offset_a : Z) (b : list T) (offset_b : Z) (n : nat) : res (list (option T)) :=
    if (0 <=? offset_a) && (offset_a <=? Z.of_nat (length a)) && (0 <=? offset_b) && (offset_b <=? Z.of_nat (length b)) then
      unpack_loop u sy (fun i j => offset_a + Z.of_nat (i * n + j)) b (fun p => offset_b + Z.of_nat p) n a
    else Panic.
  (** inner_unpack_tril_general / _triu_general, op_tri.rs:218-296, 364-442 *)
  Definition unpack_general (u : uplo) (sy : symm) (a : list (option T)) (la : layout) (b : list T) (lb : layout) (n : nat) : res (list (option T)) :=
    unpack_loop u sy (fun i j => index_uncheck la [i; j]) b (fun p => index_uncheck lb [p]) n a.
  (** the match on (uplo, c_contig), op_tri.rs:479-516 *)
  Definition unpack_one (u : uplo) (sy : symm) (contig : bool) (la lb : layout) (b : list T) (n : nat) (a : list (option T)) (p : list Z) : res (list (option T)) :=
    match p with
    | [oa; ob] => if contig then unpack_contig u sy a oa b ob n else unpack_general u sy a (at_offset la oa) b (at_offset lb ob) n
    | _ => Panic
    end.
  (** unpack_tri_cpu_serial, op_tri.rs:444-518, and unpack_tri_cpu_rayon, cpu_rayon/op_tri.rs:103-198 *)
  Definition unpack_tri_setup (la : layout) (b : list T) (lb : layout) (u : uplo) (sy : symm) : res (list (list Z) * (list (option T) -> list Z -> res (list (option T)))) :=
    let* sa := dim_split_at la (-2) in
    let* sb := dim_split_at lb (-1) in
    let* full := translate_to_col_major RowMajor [fst sa; fst sb] OK in
    let* pss := map_res (dispatch_positions Dyn) full in
    Ok (zip_all pss, unpack_one u sy (c_contig (snd sa) && c_contig (snd sb)) (snd sa) (snd sb) b (extent (snd sa) 0)).
  Definition unpack_tri_kernel (a : list (option T)) (la : layout) (b : list T) (lb : layout) (u : uplo) (sy : symm) : res (list (option T)) :=
    let* s := unpack_tri_setup la b lb u sy in fold_res (snd s) (fst s) a.
  Definition unpack_tri_rayon (a : list (option T)) (la : layout) (b : list T) (lb : layout) (u : uplo) (sy : symm) (r : res (list (option T))) : Prop :=
    match unpack_tri_setup la b lb u sy with
    | Ok s => in_some_order (snd s) (fst s) a r
    | Err e => r = Err e
    | Panic => r = Panic
    end.
  (** OpUnpackTriAPI::unpack_tri, device_cpu_serial/operators/op_tri.rs:33-54 *)
  Definition device_unpack_tri (o : order) (a : list (option T)) (la : layout) (b : list T) (lb : layout) (u : uplo) (sy : symm) : res (list (option T)) :=
    match o with
    | RowMajor => unpack_tri_kernel a la b lb u sy
    | ColMajor => unpack_tri_kernel a (reverse_axes la) b (reverse_axes lb) (flip_uplo u) sy
    end.
  (** TensorAny::unpack_tri_f, tensor/operators/op_tri.rs:102-155.  The size is the floor of an f64 square root of 2 * n_tp; it is an exact
      integer square root here (f64 represents 2 * n_tp exactly below 2^53). *)
  Definition unpack_tri_f (o : order) (t : tensor T) (u : uplo) (sy : symm) : res (tensor T) :=
    let lb := t_layout t in
    let* s := match o with
              | RowMajor => let* p := dim_split_at lb (-1) in
                            let n_tp := extent (snd p) 0 in
                            let n := Nat.sqrt (2 * n_tp) in
                            let* _ := check (n * (n + 1) / 2 =? n_tp)%nat InvalidLayout in
                            Ok (l_shape (fst p) ++ [n; n])
              | ColMajor => let* p := dim_split_at lb 1 in
                            let n_tp := extent (fst p) 0 in
                            let n := Nat.sqrt (2 * n_tp) in
                            let* _ := check (n * (n + 1) / 2 =? n_tp)%nat InvalidLayout in
                            Ok (n :: n :: l_shape (snd p))
              end in
    let la := tri_out_layout o lb s in
    let* bd := bounds_index la in
    let* a := device_unpack_tri o (uninit T (snd bd)) la (t_data t) lb u sy in
    let* a := assume_init a in
    tensor_new a la.
End Unpack.

(** ** tril, triu *)
(** tril_ix2_cpu_serial, op_tri.rs:538-552 *)
Definition tril_ix2 {T} (zero : T) (raw : list T) (l : layout) (k : Z) : res (list T) :=
  fold_res (fun raw i =>
    let j_start := Z.to_nat (Z.max (Z.of_nat i + k + 1) 0) in
    fold_res (fun raw j => zset raw (index_uncheck l [i; j]) zero) (range j_start (extent l 1)) raw) (seq 0 (extent l 0)) raw.
(** triu_ix2_cpu_serial, op_tri.rs:572-586: the column loop does not stop at the number of columns *)
Definition triu_ix2 {T} (zero : T) (raw : list T) (l : layout) (k : Z) : res (list T) :=
  fold_res (fun raw i =>
    let j_end := Z.to_nat (Z.max (Z.of_nat i + k) 0) in
    fold_res (fun raw j => zset raw (index_uncheck l [i; j]) zero) (range 0 j_end) raw) (seq 0 (extent l 0)) raw.
(** tril_cpu_serial / triu_cpu_serial, op_tri.rs:524-536, 558-570 *)
Definition tri_stack {T} (one : list T -> layout -> Z -> res (list T)) (raw : list T) (l : layout) (k : Z) : res (list T) :=
  let* s := dim_split_at l (-2) in
  let* ps := dispatch_positions Dyn (fst s) in
  fold_res (fun raw off => one raw (at_offset (snd s) off) k) ps raw.
Definition tril_kernel {T} (zero : T) := tri_stack (tril_ix2 zero).
Definition triu_kernel {T} (zero : T) := tri_stack (triu_ix2 zero).
(** tril_f / triu_f of (Tensor, k) and (TensorMut, k), tensor/creation.rs:1514-1520, 1548-1554 *)
Definition tril_mut {T} (zero : T) (t : tensor T) (k : Z) : res (tensor T) :=
  let* d := tril_kernel zero (t_data t) (t_layout t) k in Ok (mkTensor d (t_layout t)).
Definition triu_mut {T} (zero : T) (t : tensor T) (k : Z) : res (tensor T) :=
  let* d := triu_kernel zero (t_data t) (t_layout t) k in Ok (mkTensor d (t_layout t)).
(** tril_f / triu_f of (TensorView, k), tensor/creation.rs:1472-1480, 1661-1669: into_contig_f, then in place *)
Definition tril_view {T} (kd : dimty) (o : order) (zero : T) (t : tensor T) (k : Z) : res (tensor T) :=
  let* c := change_contig kd o t o in tril_mut zero c k.
Definition triu_view {T} (kd : dimty) (o : order) (zero : T) (t : tensor T) (k : Z) : res (tensor T) :=
  let* c := change_contig kd o t o in triu_mut zero c k.

(** ** blocked order change *)
(** const BLOCK_SIZE, transpose.rs:5 *)
Definition block_size : nat := 64.
(** (0..n).step_by(BLOCK_SIZE) *)
Definition block_starts (n : nat) : list nat := map (fun k => k * block_size)%nat (seq 0 ((n + (block_size - 1)) / block_size)).
Definition order_cell {T} (a : list T) (oa lda oc ldc : Z) (c : list T) (ij : nat * nat) : res (list T) :=
  let* x := zget a (oa + Z.of_nat (fst ij) * lda + Z.of_nat (snd ij)) in
  zset c (oc + Z.of_nat (snd ij) * ldc + Z.of_nat (fst ij)) x.
Definition order_checks (lc la : layout) : res unit :=
  let* _ := check (extent lc 0 =? extent la 0)%nat InvalidLayout in
  let* _ := check (extent lc 1 =? extent la 1)%nat InvalidLayout in
  let* _ := check (nth 0 (l_stride lc) 0 =? 1) InvalidLayout in
  check (nth 1 (l_stride la) 0 =? 1) InvalidLayout.
(** orderchange_out_r2c_ix2_cpu_serial, transpose.rs:11-48 *)
Definition orderchange_r2c {T} (c : list T) (lc : layout) (a : list T) (la : layout) : res (list T) :=
  let* _ := order_checks lc la in
  let nrow := extent la 0 in
  let ncol := extent la 1 in
  fold_res (fun c j_start => let j_end := Nat.min (j_start + block_size) ncol in
    fold_res (fun c i_start => let i_end := Nat.min (i_start + block_size) nrow in
      fold_res (fun c j => fold_res (fun c i => order_cell a (l_offset la) (nth 0 (l_stride la) 0) (l_offset lc) (nth 1 (l_stride lc) 0) c (i, j))
        (range i_start i_end) c) (range j_start j_end) c) (block_starts nrow) c) (block_starts ncol) c.
(** orderchange_out_c2r_ix2_cpu_serial, transpose.rs:54-61 *)
Definition orderchange_c2r {T} (c : list T) (lc : layout) (a : list T) (la : layout) : res (list T) :=
  orderchange_r2c c (reverse_axes lc) a (reverse_axes la).
(** orderchange_out_r2c_ix2_cpu_rayon(_no_pool), cpu_rayon/transpose.rs:15-88: serial below 16 * BLOCK_SIZE^2 elements, otherwise the
    blocks are handed to rayon; the element copies happen in some order.  (The write goes through a raw pointer; outside the storage it
    is a panic here, undefined behaviour there.) *)
Definition orderchange_r2c_rayon {T} (pool : bool) (c : list T) (lc : layout) (a : list T) (la : layout) (r : res (list T)) : Prop :=
  if (Z.of_nat (l_size lc) <? 65536) || negb pool then r = orderchange_r2c c lc a la
  else match order_checks lc la with
       | Ok _ => in_some_order (order_cell a (l_offset la) (nth 0 (l_stride la) 0) (l_offset lc) (nth 1 (l_stride lc) 0))
                   (flat_map (fun j_start => flat_map (fun i_start => flat_map (fun j => map (fun i => (i, j))
                      (range i_start (Nat.min (i_start + block_size) (extent la 0)))) (range j_start (Nat.min (j_start + block_size) (extent la 1))))
                      (block_starts (extent la 0))) (block_starts (extent la 1))) c r
       | Err e => r = Err e
       | Panic => r = Panic
       end.
