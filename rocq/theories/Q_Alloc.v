(** Proofs about allocated vectors. *)
From Verif Require Import Base Spec_Alloc M_Alloc.
Local Open Scope Z_scope.

Ltac cases := repeat match goal with
  | |- context [if ?b then _ else _] => destruct b eqn:?
  | H : context [if ?b then _ else _] |- _ => destruct b eqn:?
  end.
Lemma l_room : forall alloc checks t n v, 0 <= n -> sensible t -> checks = true \/ n * e_size t < 2 ^ 64 ->
  uninitialized_vec alloc checks t n = Made v -> v_len v = n /\ n * e_size t <= room v.
Proof.
  intros alloc checks t n v Hn [S A] C. unfold uninitialized_vec, aligned_uninitialized_vec, unaligned_uninitialized_vec. set (m := n * e_size t) in *.
  assert (M : 0 <= m) by (unfold m; nia). cases; intro E; try discriminate E; injection E as <-; unfold room; cbn [v_len v_block]; split; try lia.
  change (Z.pow_pos 2 64) with (2 ^ 64). rewrite Z.mod_small; [lia|]. destruct C as [->|C]; lia.
Qed.
Lemma l_made : forall checks t n, 0 <= n -> sensible t -> 1 <= e_size t -> n * e_size t <= 2 ^ 63 - 64 -> exists v, uninitialized_vec (fun _ _ => true) checks t n = Made v.
Proof.
  intros checks t n Hn [S A] S1 B. unfold uninitialized_vec, aligned_uninitialized_vec, unaligned_uninitialized_vec, layout_fits. set (m := n * e_size t) in *.
  assert (M : n <= m) by (unfold m; nia). rewrite Z.mod_small by lia. cases; eauto; exfalso; try lia.
Qed.
Lemma l_small : forall alloc checks t n v, 0 <= n < 128 -> sensible t -> uninitialized_vec alloc checks t n = Made v -> v_block v = given_back t v.
Proof.
  intros alloc checks t n v Hn [S A]. unfold uninitialized_vec, aligned_uninitialized_vec, unaligned_uninitialized_vec, given_back. cases; intro E; try discriminate E; injection E as <-; cbn [v_len v_block] in *; auto; try lia.
  all: try (rewrite Z.mul_0_l in *; cbn in *; discriminate); congruence.
Qed.
Definition f64_elem : elem := mkElem 8 8.
Lemma l_room_refuted : exists alloc t n v, 0 <= n < 2 ^ 64 /\ sensible t /\ uninitialized_vec alloc false t n = Made v /\ v_len v = n /\ room v < n.
Proof.
  exists (fun b _ => b <=? 4096), f64_elem, (2 ^ 61 + 16), (mkVector (2 ^ 61 + 16) (Some (128, 64))).
  split; [lia|]. split; [unfold sensible, f64_elem; cbn; lia|]. split; [vm_compute; reflexivity|]. split; [reflexivity|]. vm_compute. reflexivity.
Qed.
Lemma l_large : forall alloc checks t n v, 128 <= n -> sensible t -> e_align t <> 64 -> n * e_size t < 2 ^ 64 -> uninitialized_vec alloc checks t n = Made v ->
  v_block v = Some (n * e_size t, 64) /\ given_back t v = Some (n * e_size t, e_align t).
Proof.
  intros alloc checks t n v Hn [S A] NA B. unfold uninitialized_vec, aligned_uninitialized_vec, unaligned_uninitialized_vec, given_back. assert (M : 0 <= n * e_size t) by nia.
  rewrite Z.mod_small by lia. cases; intro E; try discriminate E; injection E as <-; cbn [v_len v_block] in *; try lia; split; auto; lia.
Qed.
Lemma l_freed_refuted : exists t n v, 0 <= n /\ sensible t /\ (forall checks, uninitialized_vec (fun _ _ => true) checks t n = Made v) /\ v_block v <> given_back t v.
Proof.
  exists f64_elem, 128, (mkVector 128 (Some (1024, 64))). split; [lia|]. split; [unfold sensible, f64_elem; cbn; lia|]. split; [intros []; vm_compute; reflexivity|]. vm_compute. discriminate.
Qed.
Lemma l_zero_sized_refuted : exists t n, 0 <= n /\ sensible t /\ n * e_size t = 0 /\ forall alloc checks, uninitialized_vec alloc checks t n = RuntimeError.
Proof. exists (mkElem 0 1), 128. split; [lia|]. split; [unfold sensible; cbn; lia|]. split; [reflexivity|]. intros alloc []; vm_compute; reflexivity. Qed.
