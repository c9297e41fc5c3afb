(** Property theorems about nextafter of the 16-bit floating-point types (C109).  Statements use Spec_NextAfter.v and the modelled function
    of M_NextAfter.v only. *)
From Coq Require Import ZArith Lia.
From Verif Require Import Base Spec_NextAfter M_NextAfter Q_NextAfter.
Local Open Scope Z_scope.

(** C109: for all f16 and all bf16 that are not NaN, nextafter never overflows and gives the representable number next to x in the direction of y (nothing lies between), and y itself if x and y are equal (also zeros of different signs). *)
Theorem C109_nextafter : forall t x y, pattern x -> pattern y -> ~ nan t x -> ~ nan t y -> exists r, nextafter t x y = Ok (Some r) /\ next_towards t x y r.
Proof. exact l_nextafter. Qed.
(** 1 towards 2, the smallest number towards -1, the largest finite f16 towards infinity, and 0 towards -1 *)
Example C109_example : pattern 15360 /\ ~ nan F16 15360 /\ units F16 15360 = 2 ^ 24 /\ nextafter F16 15360 16384 = Ok (Some 15361) /\ nextafter F16 1 48128 = Ok (Some 0) /\
  nextafter F16 31743 31744 = Ok (Some 31744) /\ nextafter BF16 0 49024 = Ok (Some 32769) /\ nextafter BF16 16256 0 = Ok (Some 16255).
Proof. split; [split; [discriminate|reflexivity]|]. split; [intros [H _]; vm_compute in H; discriminate|]. repeat split. Qed.
Print Assumptions C109_nextafter.

(** C109: if x or y is a NaN, so is the result. *)
Theorem C109_nextafter_nan : forall t x y, pattern x -> pattern y -> nan t x \/ nan t y -> nextafter t x y = Ok None.
Proof. exact l_nextafter_nan. Qed.
Example C109_nan_example : pattern 31745 /\ nan F16 31745 /\ nextafter F16 31745 0 = Ok None.
Proof. split; [split; [discriminate|reflexivity]|]. split; [split; [reflexivity|discriminate]|]. reflexivity. Qed.
Print Assumptions C109_nextafter_nan.

(** C109: one step towards y and one step back is the same number. *)
Theorem C109_nextafter_back : forall t x y r, pattern x -> pattern y -> ~ nan t x -> ~ nan t y -> units t x <> units t y -> nextafter t x y = Ok (Some r) ->
  exists r', nextafter t r x = Ok (Some r') /\ units t r' = units t x.
Proof. exact l_nextafter_back. Qed.
Example C109_back_example : units F16 1 <> units F16 48128 /\ nextafter F16 1 48128 = Ok (Some 0) /\ nextafter F16 0 1 = Ok (Some 1).
Proof. split; [vm_compute; discriminate|]. split; reflexivity. Qed.
Print Assumptions C109_nextafter_back.

(** C109: repeating nextafter reaches y, from every x. *)
Theorem C109_nextafter_reaches : forall t x y, pattern x -> pattern y -> ~ nan t x -> ~ nan t y -> exists n, repeated n (fun u => nextafter t u y) x = Ok (Some y).
Proof. exact l_nextafter_reaches. Qed.
Example C109_reaches_example : repeated 4 (fun u => nextafter BF16 u 2) 32769 = Ok (Some 2).
Proof. reflexivity. Qed.
Print Assumptions C109_nextafter_reaches.
