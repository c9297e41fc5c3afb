(** Model of rstsr-common/src/tensordot_to_einsum.rs.  (A char is an [ascii]; a String is a list of them.) *)
From Coq Require Import Ascii.
From Verif Require Import Base Spec M_Layout Spec_Tensordot.
Local Open Scope nat_scope.

(** the label generator, tensordot_to_einsum.rs:62: the labels not yet used.  Lines 68-70: next() or the error *)
Definition letters : list ascii := map ascii_of_nat (seq 97 26 ++ seq 65 26).
Definition next_label (gen : list ascii) : res (ascii * list ascii) :=
  match gen with c :: gen' => Ok (c, gen') | [] => Err InvalidValue end.
(** the axes to sum over, lines 25-49 *)
Definition summed_axes (da db : nat) (axes : axes_pair) : res (list nat * list nat) :=
  let axes := match axes with PairNone => PairVal 2 | _ => axes end in
  match axes with
  | PairNone => Panic
  | PairOf a b =>
    let* pa := normalize_axes_index a da false false in
    let* pb := normalize_axes_index b db false false in
    Ok (pa, pb)
  | PairVal n =>
    let* _ := check (0 <=? n)%Z InvalidValue in
    let n := Z.to_nat n in
    let* _ := check ((n <=? da) && (n <=? db)) InvalidLayout in
    Ok (seq (da - n) n, seq 0 n)
  end.
(** step 1, lines 68-72 *)
Definition pair_step (s : list ascii * list (option ascii) * list (option ascii)) (ij : nat * nat) : res (list ascii * list (option ascii) * list (option ascii)) :=
  let '(gen, al, bl) := s in
  let* '(c, gen') := next_label gen in
  let* al' := vset al (fst ij) (Some c) in
  let* bl' := vset bl (snd ij) (Some c) in
  Ok (gen', al', bl').
(** steps 2 and 3, lines 75-88 *)
Definition free_step (s : list ascii * list (option ascii)) (i : nat) : res (list ascii * list (option ascii)) :=
  let '(gen, ls) := s in
  let* cur := vget ls i in
  match cur with
  | Some _ => Ok (gen, ls)
  | None =>
    let* '(c, gen') := next_label gen in
    let* ls' := vset ls i (Some c) in
    Ok (gen', ls')
  end.
(** opt.unwrap() *)
Definition unwrap (o : option ascii) : res ascii := match o with Some c => Ok c | None => Panic end.
(** the labels of the axes that are not summed, lines 98-107 *)
Definition free_labels (dim : nat) (p : list nat) (ls : list (option ascii)) : res (list ascii) :=
  map_res (fun i => let* o := vget ls i in unwrap o) (filter (fun i => negb (existsb (Nat.eqb i) p)) (seq 0 dim)).
(** tensordot_to_einsum_str, lines 18-111, before formatting *)
Definition tensordot_labels (da db : nat) (axes : axes_pair) : res (list ascii * list ascii * list ascii) :=
  let* '(pa, pb) := summed_axes da db axes in
  let* '(gen, al, bl) := fold_res pair_step (combine pa pb) (letters, repeat None da, repeat None db) in
  let* '(gen, al) := fold_res free_step (seq 0 da) (gen, al) in
  let* '(gen, bl) := fold_res free_step (seq 0 db) (gen, bl) in
  let* sa := map_res unwrap al in
  let* sb := map_res unwrap bl in
  let* oa := free_labels da pa al in
  let* ob := free_labels db pb bl in
  Ok (sa, sb, oa ++ ob).
(** format!("{}, {} -> {}"), line 111 *)
Definition subscripts (a b o : list ascii) : list ascii := a ++ [","%char; " "%char] ++ b ++ [" "%char; "-"%char; ">"%char; " "%char] ++ o.
Definition tensordot_to_einsum_str (da db : nat) (axes : axes_pair) : res (list ascii) :=
  let* '(a, b, o) := tensordot_labels da db axes in Ok (subscripts a b o).
