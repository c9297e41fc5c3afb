(** Property theorems about element iterators (C17-C20, C49, C50).  Statements use Spec.v and the modelled entry points
    of M_Layout.v and M_Iter.v only. *)
From Verif Require Import Base Spec M_Layout M_Rearr M_Iter Q_Iter.
Local Open Scope Z_scope.

(** C17: iterating in C (F) order yields the position of every element in row-major (column-major) order, then nothing, for ever. *)
Theorem C17_forward_iteration : forall dflt k l o, wf l -> nonneg l ->
  exists it, iter_layout_new dflt k l (match o with RowMajor => OC | ColMajor => OF end) = Ok it /\
    collect it = Ok (addrs o l) /\
    forall n, exists it', run_calls k (repeat Front (size (l_shape l) + n)) it = Ok (map Some (addrs o l) ++ repeat None n, it').
Proof. exact l_iter_forward. Qed.
Example C17_example : (let* it := iter_layout_new RowMajor Fixed (mkLayout [2; 3]%nat [-5; 2] 7) OC in collect it) = Ok [7; 9; 11; 2; 4; 6]
  /\ (let* it := iter_layout_new RowMajor Dyn (mkLayout [2; 3]%nat [-5; 2] 7) OF in collect it) = Ok [7; 2; 9; 4; 11; 6]
  /\ (let* it := iter_layout_new RowMajor Dyn (mkLayout [2; 1; 1; 2; 1; 2]%nat [4; 9; 9; 2; 9; 1] 3) OC in collect it) = Ok [3; 4; 5; 6; 7; 8; 9; 10].
Proof. repeat split. Qed.
Print Assumptions C17_forward_iteration.

(** C17: iterating in the default order follows the default order of the device. *)
Theorem C17_default_order : forall dflt k l, wf l -> nonneg l ->
  exists it, iter_layout_new dflt k l OA = Ok it /\ collect it = Ok (addrs dflt l).
Proof. exact l_iter_default. Qed.
Print Assumptions C17_default_order.

(** C18: after any history of next and next_back the items taken at the front, the items left and the reversed items taken at the back make up the forward sequence; None is returned only when nothing is left. *)
Theorem C18_double_ended_iteration : forall dflt k l o ops, wf l -> nonneg l -> Forall (fun op => op = Front \/ op = Back) ops ->
  exists it outs it' rest, iter_layout_new dflt k l (match o with RowMajor => OC | ColMajor => OF end) = Ok it /\
    run_calls k ops it = Ok (outs, it') /\ collect it' = Ok rest /\ length outs = length ops /\
    fronts ops outs ++ rest ++ rev (backs ops outs) = addrs o l /\
    (In None outs -> rest = []).
Proof. exact l_iter_double_ended. Qed.
Example C18_example : (let* it := iter_layout_new RowMajor Fixed (mkLayout [2; 3]%nat [-5; 2] 7) OC in
   let* r := run_calls Fixed [Back; Front; Back; Front; Back; Front; Back; Front] it in Ok (fst r)) = Ok [Some 6; Some 7; Some 4; Some 9; Some 2; Some 11; None; None].
Proof. reflexivity. Qed.
Print Assumptions C18_double_ended_iteration.

(** C18/C19: a history of next, next_back and split_at (going on with either half) behaves as on a list. *)
Theorem C18_iterator_is_a_deque : forall dflt k l o ops, wf l -> nonneg l -> size (l_shape l) <> 0%nat -> splits_within ops (addrs o l) ->
  exists it it', iter_layout_new dflt k l (match o with RowMajor => OC | ColMajor => OF end) = Ok it /\
    run_calls k ops it = Ok (fst (deque ops (addrs o l)), it') /\ collect it' = Ok (snd (deque ops (addrs o l))).
Proof. exact l_iter_deque. Qed.
Example C18_example_deque : (let* it := iter_layout_new RowMajor Fixed (mkLayout [2; 3]%nat [-5; 2] 7) OC in
   let* r := run_calls Fixed [Front; KeepRight 2; Back; KeepLeft 1; Front; Front] it in Ok (fst r)) = Ok [Some 7; Some 6; Some 2; None]
   /\ splits_within [Front; KeepRight 2; Back; KeepLeft 1; Front; Front] (addrs RowMajor (mkLayout [2; 3]%nat [-5; 2] 7)).
Proof. split; [reflexivity|]. cbn. lia. Qed.
Print Assumptions C18_iterator_is_a_deque.

(** C19: however a parallel scheduler splits the iterator, the leaves visit consecutive parts that make up the sequential sequence. *)
Theorem C19_split_tree_partitions : forall dflt k l o t, wf l -> nonneg l -> size (l_shape l) <> 0%nat -> tree_within t (addrs o l) ->
  exists it parts, iter_layout_new dflt k l (match o with RowMajor => OC | ColMajor => OF end) = Ok it /\
    run_tree k t it = Ok parts /\ parts = leaves t (addrs o l) /\ concat parts = addrs o l.
Proof. exact l_iter_tree. Qed.
Example C19_example : (let* it := iter_layout_new RowMajor Fixed (mkLayout [2; 3]%nat [-5; 2] 7) OC in
   run_tree Fixed (Node 4 (Node 1 Leaf Leaf) (Node 2 Leaf Leaf)) it) = Ok [[7]; [9; 11; 2]; [4; 6]; []].
Proof. reflexivity. Qed.
Print Assumptions C19_split_tree_partitions.

(** C19: the claim excludes empty layouts: splitting the iterator of an empty two-dimensional layout at 0 divides by zero. *)
Theorem C19_split_of_empty_iterator_refuted : exists l it, wf l /\ nonneg l /\ iter_layout_new RowMajor Dyn l OF = Ok it /\ il_len it = Ok 0%nat /\ il_split_at Dyn it 0 = Panic.
Proof. exact l_split_empty_refuted. Qed.
Print Assumptions C19_split_of_empty_iterator_refuted.

(** C20: after any history len() is the number of items still to come. *)
Theorem C20_len_is_exact : forall dflt k l o ops, wf l -> nonneg l ->
  size (l_shape l) <> 0%nat \/ Forall (fun op => op = Front \/ op = Back) ops -> splits_within ops (addrs o l) ->
  exists it outs it' rest, iter_layout_new dflt k l (match o with RowMajor => OC | ColMajor => OF end) = Ok it /\
    run_calls k ops it = Ok (outs, it') /\ collect it' = Ok rest /\ il_len it' = Ok (length rest) /\
    length rest = length (snd (deque ops (addrs o l))).
Proof. exact l_iter_len. Qed.
Example C20_example : (let* it := iter_layout_new RowMajor Fixed (mkLayout [2; 3]%nat [-5; 2] 7) OC in
   let* r := run_calls Fixed [Front; KeepRight 2; Back] it in il_len (snd r)) = Ok 2%nat.
Proof. reflexivity. Qed.
Print Assumptions C20_len_is_exact.

(** C49: no position is handed out twice, whatever the split tree. *)
Theorem C49_parallel_mutable_iteration_disjoint : forall sh st off l dflt k o t, 0 <= off -> layout_new sh st off = Ok l ->
  (forall i, (i < length sh)%nat -> (1 < nth i sh 0)%nat -> nth i st 0 <> 0) -> size sh <> 0%nat -> tree_within t (addrs o l) ->
  exists it parts, iter_layout_new dflt k l (match o with RowMajor => OC | ColMajor => OF end) = Ok it /\
    run_tree k t it = Ok parts /\ NoDup (concat parts) /\
    (forall i j p q z, nth_error parts i = Some p -> nth_error parts j = Some q -> In z p -> In z q -> i = j).
Proof. exact l_par_mut_disjoint. Qed.
Example C49_example : (let* l := layout_new [2; 3]%nat [-5; 2] 7 in let* it := iter_layout_new RowMajor Fixed l OF in
   run_tree Fixed (Node 4 (Node 1 Leaf Leaf) Leaf) it) = Ok [[7]; [2; 9; 4]; [11; 6]].
Proof. reflexivity. Qed.
Print Assumptions C49_parallel_mutable_iteration_disjoint.

(** C50, part: under any interleaving of next and next_back, every pair handed out at the front holds an element with its own index, and the elements handed out at either end are the right ones.  Missing: the index handed out at the back (refuted below). *)
Theorem C50_indexed_iteration_partial : forall k l o ops, wf l -> nonneg l -> Forall (fun op => op = Front \/ op = Back) ops ->
  exists it outs it', indexed_new k l o = Ok it /\ run_indexed ops it = Ok (outs, it') /\
    fronts ops outs = fronts ops (fst (deque ops (map (fun ix => (ix, addr l ix)) (enum o (l_shape l))))) /\
    map (option_map snd) outs = fst (deque ops (addrs o l)).
Proof. exact l_indexed_partial. Qed.
Example C50_example : (let* it := indexed_new Fixed (mkLayout [2; 3]%nat [-5; 2] 7) RowMajor in let* r := run_indexed [Front; Front; Front; Front] it in Ok (fst r))
   = Ok [Some ([0; 0]%nat, 7); Some ([0; 1]%nat, 9); Some ([0; 2]%nat, 11); Some ([1; 0]%nat, 2)].
Proof. reflexivity. Qed.
Print Assumptions C50_indexed_iteration_partial.

(** C50: the pair produced by next_back holds an index that is not the element's. *)
Theorem C50_indexed_iteration_from_the_back_refuted : exists l it ix a it', wf l /\ nonneg l /\ injective l /\ indexed_new Dyn l RowMajor = Ok it /\
  indexed_next_back it = Ok (Some (ix, a), it') /\ a <> addr l ix.
Proof. exact l_indexed_back_refuted. Qed.
Print Assumptions C50_indexed_iteration_from_the_back_refuted.
