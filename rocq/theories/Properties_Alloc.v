(** Property theorems about the memory of new tensors (C121).  Statements use Spec_Alloc.v and [uninitialized_vec] of M_Alloc.v only. *)
From Verif Require Import Base Spec_Alloc M_Alloc Q_Alloc.
Local Open Scope Z_scope.

(** C121: a vector made for n elements has n elements and room for them, whatever the allocator does, if overflow is checked or n elements have less than 2^64 bytes. *)
Theorem C121_room : forall alloc checks t n v, 0 <= n -> sensible t -> checks = true \/ n * e_size t < 2 ^ 64 ->
  uninitialized_vec alloc checks t n = Made v -> v_len v = n /\ n * e_size t <= room v.
Proof. exact l_room. Qed.
Example C121_room_example : sensible (mkElem 8 8) /\ uninitialized_vec (fun _ _ => true) false (mkElem 8 8) 1000 = Made (mkVector 1000 (Some (8000, 64))) /\
  uninitialized_vec (fun _ _ => false) false (mkElem 8 8) 1000 = RuntimeError.
Proof. split; [unfold sensible; cbn; lia|]. split; vm_compute; reflexivity. Qed.
Print Assumptions C121_room.

(** C121: the vector is made if the allocator returns a block, the elements are not zero-sized and have at most isize::MAX - 63 bytes. *)
Theorem C121_made : forall checks t n, 0 <= n -> sensible t -> 1 <= e_size t -> n * e_size t <= 2 ^ 63 - 64 -> exists v, uninitialized_vec (fun _ _ => true) checks t n = Made v.
Proof. exact l_made. Qed.
Example C121_made_example : 1000 * e_size (mkElem 8 8) <= 2 ^ 63 - 64.
Proof. cbn. lia. Qed.
Print Assumptions C121_made.

(** C121: up to 127 elements are given back to the allocator as the block that was asked for. *)
Theorem C121_small : forall alloc checks t n v, 0 <= n < 128 -> sensible t -> uninitialized_vec alloc checks t n = Made v -> v_block v = given_back t v.
Proof. exact l_small. Qed.
Example C121_small_example : uninitialized_vec (fun _ _ => true) false (mkElem 8 8) 100 = Made (mkVector 100 (Some (800, 8))).
Proof. vm_compute. reflexivity. Qed.
Print Assumptions C121_small.

(** C121: from 128 elements on the block is asked for with alignment 64 and given back with the alignment of the element type. *)
Theorem C121_large : forall alloc checks t n v, 128 <= n -> sensible t -> e_align t <> 64 -> n * e_size t < 2 ^ 64 -> uninitialized_vec alloc checks t n = Made v ->
  v_block v = Some (n * e_size t, 64) /\ given_back t v = Some (n * e_size t, e_align t).
Proof. exact l_large. Qed.
Example C121_large_example : sensible (mkElem 16 8) /\ e_align (mkElem 16 8) <> 64 /\ uninitialized_vec (fun _ _ => true) true (mkElem 16 8) 128 = Made (mkVector 128 (Some (2048, 64))).
Proof. split; [unfold sensible; cbn; lia|]. split; [discriminate|]. vm_compute. reflexivity. Qed.
Print Assumptions C121_large.

(** C121, refuted without overflow checks: a vector has room for its elements.  2^61 + 16 elements of f64 get a block of 128 bytes. *)
Theorem C121_room_refuted : exists alloc t n v, 0 <= n < 2 ^ 64 /\ sensible t /\ uninitialized_vec alloc false t n = Made v /\ v_len v = n /\ room v < n.
Proof. exact l_room_refuted. Qed.
Print Assumptions C121_room_refuted.

(** C121, refuted: blocks are given back with the alignment they were asked for, which the allocator requires.  128 elements of f64 are not. *)
Theorem C121_freed_refuted : exists t n v, 0 <= n /\ sensible t /\ (forall checks, uninitialized_vec (fun _ _ => true) checks t n = Made v) /\ v_block v <> given_back t v.
Proof. exact l_freed_refuted. Qed.
Print Assumptions C121_freed_refuted.

(** C121, refuted: elements without size need no memory.  128 of them are an error, whatever the allocator does. *)
Theorem C121_zero_sized_refuted : exists t n, 0 <= n /\ sensible t /\ n * e_size t = 0 /\ forall alloc checks, uninitialized_vec alloc checks t n = RuntimeError.
Proof. exact l_zero_sized_refuted. Qed.
Print Assumptions C121_zero_sized_refuted.
