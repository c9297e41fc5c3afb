(** Forward and back substitution: a routine for triangular systems as the theorems about solves assume it, over every field. *)
From Coq Require Import Ring_theory Ring.
From Verif Require Import Base Spec Spec_Matmul Spec_Tri Spec_Blas M_Matmul M_Blas P_Blas2 M_Linalg Spec_Linalg P_Linalg2 M_Faer Spec_Faer.
Local Open Scope nat_scope.
Section Field.
  Context {T : Type} (zero one : T) (add mul sub : T -> T -> T) (opp : T -> T) (RT : ring_theory zero one add mul sub opp eq) (inv : T -> T) (INV : forall x, x <> zero -> mul x (inv x) = one).
  Add Ring field_ring : RT.
  Local Notation sum := (sum_over zero add).
  Lemma sum_S K f : sum (S K) f = add (sum K f) (f K).
  Proof. unfold sum_over, total. rewrite seq_S, map_app. cbn [map plus]. induction (map f (seq 0 K)) as [|x l IH]; cbn [app fold_right]; [ring|]. rewrite IH. ring. Qed.
  Lemma sum_front K f : sum (S K) f = add (f 0) (sum K (fun k => f (S k))).
  Proof. unfold sum_over. cbn [seq map total fold_right]. now rewrite <- seq_shift, map_map. Qed.
  Lemma sum_back K : forall f, sum K f = sum K (fun k => f (K - 1 - k)).
  Proof. induction K as [|K IH]; intro f; [reflexivity|]. rewrite sum_S, IH, sum_front. replace (S K - 1 - 0) with K by lia. rewrite (sum_over_ext zero add K (fun k => f (S K - 1 - S k)) (fun k => f (K - 1 - k))); [ring|]. intros k Hk. f_equal. lia. Qed.
  Lemma sum_until K t f : t < K -> (forall k, t < k < K -> f k = zero) -> sum K f = add (sum t f) (f t).
  Proof. induction K as [|K IH]; intros Ht Z; [lia|]. rewrite sum_S. destruct (Nat.eq_dec t K) as [->|]; [reflexivity|]. rewrite IH, (Z K) by (lia || (intros; apply Z; lia)). ring. Qed.
  (** the first [i] unknowns *)
  Fixpoint forward (L : nat -> nat -> T) (b : nat -> T) (i : nat) : list T :=
    match i with O => [] | S i => let x := forward L b i in x ++ [mul (sub (b i) (sum i (fun k => mul (L i k) (nth k x zero)))) (inv (L i i))] end.
  Lemma forward_length L b i : length (forward L b i) = i.
  Proof. induction i; cbn [forward]; [reflexivity|]. rewrite app_length, IHi. cbn. lia. Qed.
  Lemma forward_more L b k i : k < i -> forall n, i <= n -> nth k (forward L b n) zero = nth k (forward L b i) zero.
  Proof. intros Hk n. induction n as [|n IH]; intro H; [lia|]. destruct (Nat.eq_dec i (S n)) as [->|]; [reflexivity|]. cbn [forward]. rewrite app_nth1 by (rewrite forward_length; lia). apply IH. lia. Qed.
  Lemma forward_ok L b n i : i < n -> L i i <> zero -> add (sum i (fun k => mul (L i k) (nth k (forward L b n) zero))) (mul (L i i) (nth i (forward L b n) zero)) = b i.
  Proof. intros Hi N. rewrite (forward_more L b i (S i)) by lia. cbn [forward]. rewrite app_nth2, forward_length, Nat.sub_diag by (rewrite forward_length; lia). cbn [nth].
    rewrite (sum_over_ext zero add i (fun k => mul (L i k) (nth k (forward L b n) zero)) (fun k => mul (L i k) (nth k (forward L b i) zero))) by (intros k Hk; now rewrite (forward_more L b k i) by lia).
    set (s := sum i _). replace (mul (L i i) (mul (sub (b i) s) (inv (L i i)))) with (mul (mul (L i i) (inv (L i i))) (sub (b i) s)) by ring. rewrite INV by exact N. ring. Qed.
  Definition substitution (_ : par) (u : uplo) (n _ : nat) (A : list (list T)) (_ _ : nat) (B : list (list T)) : option (nat -> nat -> T) :=
    let L := fun i j => nth j (nth i A []) zero in let b := fun j i => nth j (nth i B []) zero in
    Some (match u with
          | Lower => fun i j => nth i (forward L (b j) n) zero
          | Upper => fun i j => nth (n - 1 - i) (forward (fun i k => L (n - 1 - i) (n - 1 - k)) (fun i => b j (n - 1 - i)) n) zero
          end).
  Lemma listed_at m n (A : nat -> nat -> T) i j : i < m -> j < n -> nth j (nth i (rows m n A) []) zero = A i j.
  Proof. intros Hi Hj. unfold rows. rewrite (nth_indep _ [] (map (A 0) (seq 0 n))) by (now rewrite map_length, seq_length).
    rewrite (map_nth (fun i => map (A i) (seq 0 n)) (seq 0 m) 0), seq_nth by lia. rewrite (nth_indep _ zero (A (0 + i) 0)) by (now rewrite map_length, seq_length). rewrite map_nth, seq_nth by lia. reflexivity. Qed.
  Lemma substitution_ok : solves_triangles zero one add mul substitution.
  Proof. intros g u n p L B D. eexists. split; [reflexivity|]. intros i j Hi Hj. unfold product. set (A := rows n n _). set (BL := rows n p B).
    assert (AT : forall i k, i < n -> k < n -> nth k (nth i A []) zero = if in_triangle u i k then L i k else zero) by (intros; unfold A; now rewrite listed_at by lia).
    assert (BT : forall i, i < n -> nth j (nth i BL []) zero = B i j) by (intros; unfold BL; now rewrite listed_at by lia).
    destruct u; unfold triangular; cbn [andb].
    - set (x := forward _ _ n). rewrite sum_back. rewrite (sum_until n (n - 1 - i)); [|lia|].
      + assert (DI : nth (n - 1 - (n - 1 - i)) (nth (n - 1 - (n - 1 - i)) A []) zero <> zero).
        { replace (n - 1 - (n - 1 - i)) with i by lia. rewrite AT by lia. unfold in_triangle. rewrite Nat.leb_refl. now apply D. }
        pose proof (forward_ok (fun i k => nth (n - 1 - k) (nth (n - 1 - i) A []) zero) (fun i => nth j (nth (n - 1 - i) BL []) zero) n (n - 1 - i) ltac:(lia) DI) as F. cbv beta in F. rewrite BT in F by lia.
        fold x in F. replace (n - 1 - (n - 1 - i)) with i in * by lia. etransitivity; [|exact F]. f_equal.
        * apply sum_over_ext. intros k Hk. rewrite AT by lia. replace (n - 1 - (n - 1 - k)) with k by lia. reflexivity.
        * rewrite AT by lia. reflexivity.
      + intros k Hk. unfold in_triangle. replace (i <=? n - 1 - k) with false by lia. ring.
    - set (x := forward _ _ n). rewrite (sum_until n i); [|lia|].
      + assert (DI : nth i (nth i A []) zero <> zero) by (rewrite AT by lia; unfold in_triangle; rewrite Nat.leb_refl; now apply D).
        pose proof (forward_ok (fun i k => nth k (nth i A []) zero) (fun i => nth j (nth i BL []) zero) n i ltac:(lia) DI) as F. cbv beta in F. rewrite BT in F by lia. fold x in F. etransitivity; [|exact F]. f_equal.
        * apply sum_over_ext. intros k Hk. rewrite AT by lia. reflexivity.
        * rewrite AT by lia. reflexivity.
      + intros k Hk. unfold in_triangle. replace (k <=? i) with false by lia. ring. Qed.
End Field.
