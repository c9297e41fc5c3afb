(** Model of the elementwise kernels: rstsr-native-impl/src/cpu_serial/assignment.rs and op_with_func.rs, and their
    rayon versions.  A storage is a list; an access outside it is a panic.  Element types are arbitrary; a closure
    [FnMut(&mut C, &A, &B)] is a pure function from the old content of the cell and the operands to the new content
    (simplification: closures keep no state of their own; M_MapMut.v runs the kernels with closures that do).  [MaybeUninit<T>] is [option T]. *)
From Verif Require Import Base Spec M_Layout M_Indexer M_Broadcast M_Rearr M_Iter.
Local Open Scope Z_scope.

(** izip! of the operands' iterators, rstsr-common/src/layout/iterator.rs:838-1043: tuples of positions, stopping at the shortest *)
Fixpoint zip_all (pss : list (list Z)) : list (list Z) :=
  match pss with
  | [] => []
  | [p] => map (fun x => [x]) p
  | p :: r => map (fun q => fst q :: snd q) (combine p (zip_all r))
  end.
(** layout_col_major_dim_dispatch_1 / _2 / _3 / _2diff, iterator.rs:838-1043: run [body] on every tuple.  (The ranks agree
    at every call of the kernels below, so the assertion of equal ranks is left out.) *)
Definition dispatch {S} (k : dimty) (ls : list layout) (body : S -> list Z -> res S) (s : S) : res S :=
  let* pss := map_res (dispatch_positions k) ls in fold_res body (zip_all pss) s.
(** the inner loop [for i in 0..size_contig] of the kernels, op_with_func.rs:36-38 *)
Definition inner {S} (n : nat) (body : S -> list Z -> res S) (s : S) (p : list Z) : res S :=
  fold_res (fun s i => body s (map (fun x => x + Z.of_nat i) p)) (seq 0 n) s.
(** CONTIG_SWITCH, op_with_func.rs:8, assignment.rs:4 *)
Definition contig_switch : nat := 16.

(** common body of the kernels with several operands, op_with_func.rs:23-45, 60-79, 94-113, 127-146, assignment.rs:95-117.
    (K order does not depend on the default order.) *)
Definition joint_kernel {S} (k : dimty) (ls : list layout) (body : S -> list Z -> res S) (s : S) : res S :=
  let* full := translate_to_col_major RowMajor ls OK in
  let '(contig, n) := with_contig full in
  if (contig_switch <=? n)%nat then dispatch k contig (inner n body) s else dispatch k full body s.
(** common body of the kernels with one operand, op_with_func.rs:157-172, 182-197 *)
Definition single_kernel {S} (k : dimty) (switch : nat) (l : layout) (body : S -> list Z -> res S) (s : S) : res S :=
  let* g := translate_unary RowMajor l OG in
  let '(contig, n) := with_contig [g] in
  if (switch <=? n)%nat then dispatch k contig (inner n body) s else dispatch k [g] body s.

(** closures handed to dispatch: [f(&mut c[idx_c], &a[idx_a], &b[idx_b])] and so on *)
Definition cell3 {C A B} (a : list A) (b : list B) (f : C -> A -> B -> C) (c : list C) (p : list Z) : res (list C) :=
  match p with
  | [ic; ia; ib] => let* x := zget c ic in let* y := zget a ia in let* z := zget b ib in zset c ic (f x y z)
  | _ => Panic
  end.
Definition cell2 {C A} (a : list A) (f : C -> A -> C) (c : list C) (p : list Z) : res (list C) :=
  match p with
  | [ic; ia] => let* x := zget c ic in let* y := zget a ia in zset c ic (f x y)
  | _ => Panic
  end.
Definition cell1 {C} (f : C -> C) (c : list C) (p : list Z) : res (list C) :=
  match p with [ic] => let* x := zget c ic in zset c ic (f x) | _ => Panic end.

(** op_mutc_refa_refb_func_cpu_serial, op_with_func.rs:10-45 *)
Definition op_mutc_refa_refb {C A B} (k : dimty) (c : list C) (lc : layout) (a : list A) (la : layout) (b : list B) (lb : layout)
  (f : C -> A -> B -> C) : res (list C) := joint_kernel k [lc; la; lb] (cell3 a b f) c.
(** op_mutc_refa_numb_func_cpu_serial, op_with_func.rs:47-79 *)
Definition op_mutc_refa_numb {C A B} (k : dimty) (c : list C) (lc : layout) (a : list A) (la : layout) (b : B)
  (f : C -> A -> B -> C) : res (list C) := joint_kernel k [lc; la] (cell2 a (fun x y => f x y b)) c.
(** op_mutc_numa_refb_func_cpu_serial, op_with_func.rs:81-113 *)
Definition op_mutc_numa_refb {C A B} (k : dimty) (c : list C) (lc : layout) (a : A) (b : list B) (lb : layout)
  (f : C -> A -> B -> C) : res (list C) := joint_kernel k [lc; lb] (cell2 b (fun x y => f x a y)) c.
(** op_muta_refb_func_cpu_serial, op_with_func.rs:115-146 *)
Definition op_muta_refb {A B} (k : dimty) (a : list A) (la : layout) (b : list B) (lb : layout) (f : A -> B -> A) : res (list A) :=
  joint_kernel k [la; lb] (cell2 b f) a.
(** op_muta_numb_func_cpu_serial, op_with_func.rs:148-172 *)
Definition op_muta_numb {A B} (k : dimty) (a : list A) (la : layout) (b : B) (f : A -> B -> A) : res (list A) :=
  single_kernel k contig_switch la (cell1 (fun x => f x b)) a.
(** op_muta_func_cpu_serial, op_with_func.rs:174-199 *)
Definition op_muta {A} (k : dimty) (a : list A) (la : layout) (f : A -> A) : res (list A) :=
  single_kernel k contig_switch la (cell1 f) a.

(** assign_cpu_serial and its uninit/promote variants, assignment.rs:68-118; [cast] is clone / into_cast.  The slices
    c[i..i+n] of the contiguous branch are walked element by element: out of range is a panic either way. *)
Definition assign {C A} (k : dimty) (cast : A -> C) (c : list C) (lc : layout) (a : list A) (la : layout) : res (list C) :=
  joint_kernel k [lc; la] (cell2 a (fun _ y => cast y)) c.
(** assign_arbitary_cpu_serial and its variants, assignment.rs:6-66: shapes may differ.  The slices
    c[offset_c..offset_c+size] and a[offset_a..offset_a+size] of the contiguous branch panic when out of range, even
    when size is 0 (a wrapped offset, negative here, is a huge usize). *)
Definition assign_arbitary {C A} (k : dimty) (cast : A -> C) (c : list C) (lc : layout) (a : list A) (la : layout) (o : order) : res (list C) :=
  let contig := match o with RowMajor => c_contig lc && c_contig la | ColMajor => f_contig lc && f_contig la end in
  let in_range off (len : nat) := (0 <=? off) && (off + Z.of_nat (l_size lc) <=? Z.of_nat len) in
  if contig
  then if in_range (l_offset lc) (length c) && in_range (l_offset la) (length a)
       then fold_res (cell2 a (fun _ y => cast y)) (map (fun i => [l_offset lc + Z.of_nat i; l_offset la + Z.of_nat i]) (seq 0 (l_size lc))) c
       else Panic
  else let io := match o with RowMajor => OC | ColMajor => OF end in
       let* lc := translate_unary RowMajor lc io in
       let* la := translate_unary RowMajor la io in
       dispatch k [lc; la] (cell2 a (fun _ y => cast y)) c.
(** fill_promote_cpu_serial, assignment.rs:128-153; the contiguous branch needs more than CONTIG_SWITCH elements *)
Definition fill {C A} (k : dimty) (cast : A -> C) (c : list C) (lc : layout) (v : A) : res (list C) :=
  single_kernel k (S contig_switch) lc (cell1 (fun _ => cast v)) c.

(** ** rayon versions.  The parallel loops hand every element step to some worker; any outcome is that of running the
    element steps in some order (steps on the same cell do not tear; see C53 for the non-aliasing assumption). *)
Definition in_some_order {S X} (body : S -> X -> res S) (steps : list X) (s : S) (r : res S) : Prop :=
  exists steps', Permutation steps' steps /\ r = fold_res body steps' s.
(** all element steps of layout_col_major_dim_dispatch_par_*, rstsr-common/src/par_iter.rs:84-281, with the inner loops of length [n] unrolled *)
Definition par_steps (k : dimty) (ls : list layout) (n : nat) : res (list (list Z)) :=
  let* pss := map_res (dispatch_positions k) ls in
  Ok (flat_map (fun p => map (fun i => map (fun x => x + Z.of_nat i) p) (seq 0 n)) (zip_all pss)).
(** parallel part of the kernels with several operands, cpu_rayon/op_with_func.rs:36-78 etc., cpu_rayon/assignment.rs:137-168.
    Whether the inner loop is itself parallel (size_contig >= PARALLEL_SWITCH) only restricts the order. *)
Definition joint_par {S} (k : dimty) (ls : list layout) (body : S -> list Z -> res S) (s : S) (r : res S) : Prop :=
  match (let* full := translate_to_col_major RowMajor ls OK in
         let '(contig, n) := with_contig full in
         if (contig_switch <=? n)%nat then par_steps k contig n else par_steps k full 1) with
  | Ok steps => in_some_order body steps s r
  | Err e => r = Err e
  | Panic => r = Panic
  end.
(** parallel part of the kernels with one operand, cpu_rayon/op_with_func.rs:299-335 etc., cpu_rayon/assignment.rs:196-225 *)
Definition single_par {S} (k : dimty) (l : layout) (body : S -> list Z -> res S) (s : S) (r : res S) : Prop :=
  match (let* g := translate_unary RowMajor l OG in
         let '(contig, n) := with_contig [g] in
         if (contig_switch <=? n)%nat then par_steps k contig n else par_steps k [g] 1) with
  | Ok steps => in_some_order body steps s r
  | Err e => r = Err e
  | Panic => r = Panic
  end.
(** op_mutc_refa_refb_func_cpu_rayon, cpu_rayon/op_with_func.rs:12-79 (PARALLEL_SWITCH 4096) *)
Definition op_mutc_refa_refb_rayon {C A B} (pool : bool) (k : dimty) (c : list C) (lc : layout) (a : list A) (la : layout) (b : list B) (lb : layout)
  (f : C -> A -> B -> C) (r : res (list C)) : Prop :=
  if (Z.of_nat (l_size lc) <? 4096) || negb pool then r = op_mutc_refa_refb k c lc a la b lb f
  else joint_par k [lc; la; lb] (cell3 a b f) c r.
(** op_muta_refb_func_cpu_rayon, cpu_rayon/op_with_func.rs:214-275 *)
Definition op_muta_refb_rayon {A B} (pool : bool) (k : dimty) (a : list A) (la : layout) (b : list B) (lb : layout) (f : A -> B -> A) (r : res (list A)) : Prop :=
  if (Z.of_nat (l_size la) <? 4096) || negb pool then r = op_muta_refb k a la b lb f
  else joint_par k [la; lb] (cell2 b f) a r.
(** op_muta_func_cpu_rayon, cpu_rayon/op_with_func.rs:337-390 *)
Definition op_muta_rayon {A} (pool : bool) (k : dimty) (a : list A) (la : layout) (f : A -> A) (r : res (list A)) : Prop :=
  if (Z.of_nat (l_size la) <? 4096) || negb pool then r = op_muta k a la f
  else single_par k la (cell1 f) a r.
(** assign_cpu_rayon, cpu_rayon/assignment.rs:95-168 (PARALLEL_SWITCH 16384) *)
Definition assign_rayon {C A} (pool : bool) (k : dimty) (cast : A -> C) (c : list C) (lc : layout) (a : list A) (la : layout) (r : res (list C)) : Prop :=
  if (Z.of_nat (l_size lc) <? 16384) || negb pool then r = assign k cast c lc a la
  else joint_par k [lc; la] (cell2 a (fun _ y => cast y)) c r.
(** fill_promote_cpu_rayon, cpu_rayon/assignment.rs:178-225 *)
Definition fill_rayon {C A} (pool : bool) (k : dimty) (cast : A -> C) (c : list C) (lc : layout) (v : A) (r : res (list C)) : Prop :=
  if (Z.of_nat (l_size lc) <? 16384) || negb pool then r = fill k cast c lc v
  else single_par k lc (cell1 (fun _ => cast v)) c r.
