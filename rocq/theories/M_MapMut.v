(** Model of rstsr-core/src/tensor/map_elementwise.rs:1-230 with closures that keep a state: map_fnmut, mapv_fnmut,
    mapi_fnmut, mapvi_fnmut, mapb_fnmut, mapvb_fnmut.  A closure [FnMut(&A) -> B] whose captured variables have type [St]
    is a function [St -> A -> St * B].  Only the serial device accepts such closures: the rayon devices ask for
    [Fn + Send + Sync], feature_rayon/auto_impl/op_with_func.rs. *)
From Verif Require Import Base Spec M_Layout M_Indexer M_Broadcast M_Rearr M_Iter M_Kernel M_Tensor.
Local Open Scope Z_scope.

(** the closures handed to the kernels, map_elementwise.rs:25-27 and op_with_func.rs:137-140: one call, whose result is
    written into the cell of the output *)
Definition call2 {St A B} (a : list A) (g : St -> A -> St * B) (s : St * list (option B)) (p : list Z) : res (St * list (option B)) :=
  match p with
  | [ic; ia] => let* _ := zget (snd s) ic in let* x := zget a ia in
                let '(st, y) := g (fst s) x in let* c := zset (snd s) ic (Some y) in Ok (st, c)
  | _ => Panic
  end.
(** map_elementwise.rs:157-159 *)
Definition call3 {St A B C} (a : list A) (b : list B) (g : St -> A -> B -> St * C) (s : St * list (option C)) (p : list Z) : res (St * list (option C)) :=
  match p with
  | [ic; ia; ib] => let* _ := zget (snd s) ic in let* x := zget a ia in let* z := zget b ib in
                    let '(st, y) := g (fst s) x z in let* c := zset (snd s) ic (Some y) in Ok (st, c)
  | _ => Panic
  end.
(** map_elementwise.rs:77-80: the closure reads and writes the cell *)
Definition call1 {St A} (g : St -> A -> St * A) (s : St * list A) (p : list Z) : res (St * list A) :=
  match p with
  | [ic] => let* x := zget (snd s) ic in let '(st, y) := g (fst s) x in let* c := zset (snd s) ic y in Ok (st, c)
  | _ => Panic
  end.

(** map_fnmut_f, map_elementwise.rs:16-31, and mapv_fnmut_f, 45-52; returns the final state of the closure and the tensor *)
Definition map_fnmut {St A B} (k : dimty) (dflt : order) (g : St -> A -> St * B) (st : St) (a : tensor A) : res (St * tensor B) :=
  let* lc := layout_for_array_copy k dflt (t_layout a) OK in
  let* bd := bounds_index lc in
  let* r := joint_kernel k [lc; t_layout a] (call2 (t_data a) g) (st, uninit B (snd bd)) in
  let* c := assume_init (snd r) in
  let* t := tensor_new c lc in
  Ok (fst r, t).
(** mapi_fnmut_f, map_elementwise.rs:67-82, and mapvi_fnmut_f, 96-103 *)
Definition mapi_fnmut {St A} (k : dimty) (g : St -> A -> St * A) (st : St) (a : tensor A) : res (St * tensor A) :=
  let* l := greedy_layout (t_layout a) false in
  let* r := single_kernel k contig_switch (fst l) (call1 g) (st, t_data a) in
  Ok (fst r, mkTensor (snd r) (t_layout a)).
(** mapb_fnmut_f, map_elementwise.rs:126-163, and mapvb_fnmut_f, 181-196.  [o] is the device's default order.
    (Both operands on one device: the check of line 143 is left out.) *)
Definition mapb_fnmut {St A B C} (k : dimty) (o : order) (g : St -> A -> B -> St * C) (st : St) (a : tensor A) (b : tensor B) : res (St * tensor C) :=
  let* p := broadcast_layout (t_layout a) (t_layout b) o in
  let '(la, lb) := p in
  let* lc := get_layout_for_binary_op la lb o in
  let* bd := bounds_index lc in
  let* r := joint_kernel k [lc; la; lb] (call3 (t_data a) (t_data b) g) (st, uninit C (snd bd)) in
  let* c := assume_init (snd r) in
  let* t := tensor_new c lc in
  Ok (fst r, t).
