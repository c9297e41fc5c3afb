(** Property theorems about printed tensors (C77).  Statements use Spec.v, Spec_Format.v and M_Format.v only. [mx], [mn]: MAX_PRINT and MIN_PRINT. *)
From Coq Require Import Ascii String.
From Verif Require Import Base Spec Spec_Format M_Layout M_Tensor M_Format P_Tensor Q_Format.
From Coq Require Import List.
Local Open Scope nat_scope.
Local Open Scope list_scope.

(** two blocks of 5 rows, column-major *)
Definition fm_t : tensor nat := mkTensor (seq 0 20) (mkLayout [2; 5; 2] [1; 2; 10]%Z 0%Z).
Lemma fm_ok : tensor_ok fm_t. Proof. unfold fm_t. cbn [seq]. concrete_tensor. Qed.
Definition lines (xs : list string) : text := join [newline] (map str xs).

(** C77: printing a tensor ends without a panic and gives nested brackets: one line per row, a blank line between higher blocks, indentation by depth, and dots in place of the middle of long axes; an empty tensor prints as []. *)
Theorem C77_print : forall T (show : T -> text) (mx mn : nat) (t : tensor T), tensor_ok t -> (1 <= mn)%nat ->
  exists enough, forall fuel, (enough <= fuel)%nat -> print_tensor show fuel mx mn t = Some (Ok (display show mx mn (t_shape t) (at_ t))).
Proof. exact l_print. Qed.
Example C77_print_example : tensor_ok fm_t /\ 1 <= MIN_PRINT /\ print_tensor digit 40 MAX_PRINT MIN_PRINT fm_t = Some (Ok (lines
  ["[[[ 0 0]"; "  [ 2 2]"; "  [ 4 4]"; "  [ 6 6]"; "  [ 8 8]]"; ""; " [[ 1 1]"; "  [ 3 3]"; "  [ 5 5]"; "  [ 7 7]"; "  [ 9 9]]]"]%string)) /\
  print_tensor digit 40 4 1 fm_t = Some (Ok (lines ["[[[ 0 0]"; "  ..."; "  [ 8 8]]"; ""; " [[ 1 1]"; "  ..."; "  [ 9 9]]]"]%string)).
Proof. split; [exact fm_ok|]. split; [unfold MIN_PRINT; lia|]. split; vm_compute; reflexivity. Qed.
Print Assumptions C77_print.

(** C77: what is printed depends only on the shape and the elements, not on strides, offset or storage. *)
Theorem C77_print_same : forall T (show : T -> text) (mx mn : nat) (a b : tensor T), tensor_ok a -> tensor_ok b -> (1 <= mn)%nat -> t_shape a = t_shape b ->
  (forall ix, valid (t_shape a) ix -> at_ a ix = at_ b ix) ->
  exists enough, forall fuel, (enough <= fuel)%nat -> print_tensor show fuel mx mn a = print_tensor show fuel mx mn b.
Proof. exact l_print_same. Qed.
Example C77_print_same_example : let b := mkTensor [9; 0; 10; 1; 11; 2; 12; 3; 13; 4; 14; 5; 15; 6; 16; 7; 17; 8; 18; 9; 19] (mkLayout [2; 5; 2] [2; 4; 1]%Z 1%Z) in
  t_shape b = t_shape fm_t /\ tensor_ok b /\ print_tensor digit 40 4 1 b = print_tensor digit 40 4 1 fm_t.
Proof. split; [reflexivity|]. split; [concrete_tensor|vm_compute; reflexivity]. Qed.
Print Assumptions C77_print_same.

(** C77: brackets are balanced (if elements print without brackets). *)
Theorem C77_print_balanced : forall T (show : T -> text) (mx mn : nat) (t : tensor T), tensor_ok t -> (1 <= mn)%nat -> (forall x, no_brackets (show x)) ->
  exists out enough, (forall fuel, (enough <= fuel)%nat -> print_tensor show fuel mx mn t = Some (Ok out)) /\ depth 0 out = Some 0%nat.
Proof. exact l_print_balanced. Qed.
Example C77_print_balanced_example : (forall x, no_brackets (digit x)) /\ depth 0 (display digit 4 1 [2; 5; 2] (at_ fm_t)) = Some 0.
Proof. split; [apply digit_plain|reflexivity]. Qed.
Print Assumptions C77_print_balanced.

(** C77: dots stand for at least one index that is not shown: along rows always, along the other axes if MAX_PRINT exceeds twice MIN_PRINT (the defaults do). *)
Theorem C77_dots_hide : forall mx mn limit n, (limit = row_limit mx mn \/ limit = stack_limit mx mn /\ (2 * mn < mx)%nat) -> In None (shown limit mn n) ->
  exists i, (i < n)%nat /\ ~ In (Some i) (shown limit mn n).
Proof. exact l_dots_hide. Qed.
Example C77_dots_hide_example : 2 * MIN_PRINT < MAX_PRINT /\ In None (shown (stack_limit MAX_PRINT MIN_PRINT) MIN_PRINT 8).
Proof. split; [unfold MIN_PRINT, MAX_PRINT; lia|cbn; tauto]. Qed.
Print Assumptions C77_dots_hide.

(** C77, refuted without that condition: with MIN_PRINT = 4 and MAX_PRINT = 8, eight rows are printed all, with dots in the middle that hide nothing. *)
Theorem C77_dots_hide_refuted : exists mx mn n, (1 <= mn)%nat /\ In None (shown (stack_limit mx mn) mn n) /\ forall i, (i < n)%nat -> In (Some i) (shown (stack_limit mx mn) mn n).
Proof. exact l_dots_refuted. Qed.
Print Assumptions C77_dots_hide_refuted.

(** C77, refuted for MIN_PRINT = 0: a long leading axis prints one row, then dots, and never closes its brackets. *)
Theorem C77_print_refuted : exists (show : nat -> text) (t : tensor nat) mx out fuel, (forall x, no_brackets (show x)) /\ tensor_ok t /\
  print_tensor show fuel mx 0 t = Some (Ok out) /\ depth 0 out <> Some 0%nat.
Proof. exact l_min_print_refuted. Qed.
Print Assumptions C77_print_refuted.
