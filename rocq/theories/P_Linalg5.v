(** The Moore-Penrose inverse from a singular value decomposition. *)
From Coq Require Import Ring_theory Ring.
From Verif Require Import Base Spec Spec_Matmul Spec_Tri Spec_Blas P_Index P_List M_Layout M_Tensor P_Blas2 Spec_Linalg P_Linalg2.

Section Algebra.
  Context {T : Type} (zero one : T) (add mul sub : T -> T -> T) (opp : T -> T).
  Context (RT : ring_theory zero one add mul sub opp eq).
  Add Ring T_ring3 : RT.
  Notation sum_over := (sum_over zero add).
  Notation product := (product zero add mul).
  Notation identity := (identity zero one).
  Lemma sum_scale K c f : sum_over K (fun i => mul c (f i)) = mul c (sum_over K f).
  Proof. unfold Spec_Blas.sum_over, total. induction (seq 0 K) as [|k l IH]; cbn [map fold_right]; [ring|]. rewrite IH. ring. Qed.
  Lemma sum_scale_r K c f : sum_over K (fun i => mul (f i) c) = mul (sum_over K f) c.
  Proof. unfold Spec_Blas.sum_over, total. induction (seq 0 K) as [|k l IH]; cbn [map fold_right]; [ring|]. rewrite IH. ring. Qed.
  Lemma sum_add K f g : sum_over K (fun i => add (f i) (g i)) = add (sum_over K f) (sum_over K g).
  Proof. unfold Spec_Blas.sum_over, total. induction (seq 0 K) as [|k l IH]; cbn [map fold_right]; [ring|]. rewrite IH. ring. Qed.
  Lemma sum_nil K : sum_over K (fun _ => zero) = zero.
  Proof. unfold Spec_Blas.sum_over, total. induction (seq 0 K) as [|k l IH]; cbn [map fold_right]; [ring|]. rewrite IH. ring. Qed.
  Lemma sum_swap K L (f : nat -> nat -> T) : sum_over K (fun i => sum_over L (f i)) = sum_over L (fun j => sum_over K (fun i => f i j)).
  Proof. unfold Spec_Blas.sum_over at 1 4, total. induction (seq 0 K) as [|k l IH]; cbn [map fold_right].
    - symmetry. apply sum_nil.
    - rewrite IH. symmetry. apply sum_add. Qed.
  Lemma sum_pick K k f : k < K -> sum_over K (fun l => mul (identity k l) (f l)) = f k.
  Proof. intro H. unfold Spec_Blas.sum_over, total. replace K with (k + (1 + (K - k - 1))) by lia. rewrite seq_app, map_app, fold_right_app. cbn [Nat.add seq map fold_right].
    assert (Z : forall l, (forall i, In i l -> i <> k) -> forall a, fold_right add a (map (fun l => mul (identity k l) (f l)) l) = a).
    { induction l as [|i l IH]; [reflexivity|]. intros N a. cbn [map fold_right]. rewrite IH by (intros; apply N; now right). unfold Spec_Blas.identity. destruct (Nat.eqb_spec k i) as [->|]; [exfalso; apply (N i); [now left|auto]|ring]. }
    rewrite (Z (seq (S k) _)) by (intros i Hi; apply in_seq in Hi; lia). rewrite Z by (intros i Hi; apply in_seq in Hi; lia). unfold Spec_Blas.identity. rewrite Nat.eqb_refl. ring. Qed.
  Lemma identity_sym i j : identity i j = identity j i. Proof. unfold Spec_Blas.identity. now rewrite Nat.eqb_sym. Qed.
  Lemma product_ext K A B A' B' i j : (forall k, k < K -> A i k = A' i k) -> (forall k, k < K -> B k j = B' k j) -> product K A B i j = product K A' B' i j.
  Proof. intros HA HB. unfold Spec_Blas.product. apply sum_over_ext. intros k Hk. now rewrite HA, HB. Qed.
  Lemma product_assoc K L A B C i j : product L (product K A B) C i j = product K A (product L B C) i j.
  Proof. unfold Spec_Blas.product. transitivity (sum_over L (fun l => sum_over K (fun k => mul (mul (A i k) (B k l)) (C l j)))).
    - apply sum_over_ext. intros l _. now rewrite <- sum_scale_r.
    - rewrite sum_swap. apply sum_over_ext. intros k _. rewrite <- sum_scale. apply sum_over_ext. intros l _. ring. Qed.
  Lemma product_id_l K A i j : i < K -> product K identity A i j = A i j.
  Proof. intro H. unfold Spec_Blas.product. now apply (sum_pick K i (fun k => A k j)). Qed.
  Lemma product_id_r K A i j : j < K -> product K A identity i j = A i j.
  Proof. intro H. unfold Spec_Blas.product. rewrite (sum_over_ext zero add K _ (fun k => mul (identity j k) (A i k))). - now apply (sum_pick K j). - intros k _. rewrite (identity_sym k j). ring. Qed.

  (** X has a left inverse W with X W Hermitian, Y has orthonormal rows: Y^H W inverts X Y *)
  Context (conj : T -> T) (CJ : conjugation add mul conj).
  Lemma conj_zero : conj zero = zero.
  Proof. destruct CJ as (A & _). pose proof (A zero zero) as X. replace (add zero zero) with zero in X by ring. transitivity (add (conj zero) (opp (conj zero))); [|ring].
    transitivity (add (add (conj zero) (conj zero)) (opp (conj zero))); [ring|]. now rewrite <- X. Qed.
  Lemma conj_sum K f : conj (sum_over K f) = sum_over K (fun k => conj (f k)).
  Proof. destruct CJ as (A & _). unfold Spec_Blas.sum_over, total. induction (seq 0 K) as [|k l IH]; cbn [map fold_right]; [apply conj_zero|]. now rewrite A, IH. Qed.
  Lemma conj_product K A B i j : conj (product K A B i j) = product K (op_of conj ConjTrans B) (op_of conj ConjTrans A) j i.
  Proof. unfold Spec_Blas.product. rewrite conj_sum. apply sum_over_ext. intros k _. cbn [op_of]. destruct CJ as (_ & -> & _). ring. Qed.
  Lemma penrose_factors m n r X Y W : let A := product r X Y in let B := product r (op_of conj ConjTrans Y) W in
    (forall a b, a < r -> b < r -> product n Y (op_of conj ConjTrans Y) a b = identity a b) ->
    (forall a b, a < r -> b < r -> product m W X a b = identity a b) ->
    (forall i j, i < m -> j < m -> conj (product r X W j i) = product r X W i j) ->
    penrose zero add mul conj m n A B.
  Proof. intros A B HY HW HH.
    assert (AB : forall i j, product n A B i j = product r X W i j).
    { intros i j. unfold A, B. rewrite product_assoc. apply product_ext; [auto|]. intros k Hk. rewrite <- product_assoc. transitivity (product r identity W k j); [|now apply product_id_l]. apply product_ext; auto. }
    assert (BA : forall i j, product m B A i j = product r (op_of conj ConjTrans Y) Y i j).
    { intros i j. unfold A, B. rewrite product_assoc. apply product_ext; [auto|]. intros k Hk. rewrite <- product_assoc. transitivity (product r identity Y k j); [|now apply product_id_l]. apply product_ext; auto. }
    split; [|split; [|split]].
    - intros i j Hi Hj. rewrite (product_ext m _ A (product r X W) A) by auto. unfold A. rewrite product_assoc. apply product_ext; [auto|]. intros k Hk. rewrite <- product_assoc. transitivity (product r identity Y k j); [|now apply product_id_l]. apply product_ext; auto.
    - intros i j Hi Hj. rewrite (product_ext n _ B (product r (op_of conj ConjTrans Y) Y) B) by auto. unfold B. rewrite product_assoc. apply product_ext; [auto|]. intros k Hk. rewrite <- product_assoc. transitivity (product r identity W k j); [|now apply product_id_l]. apply product_ext; auto.
    - intros i j Hi Hj. rewrite !AB. auto.
    - intros i j Hi Hj. rewrite !BA, conj_product. apply product_ext; auto. intros k Hk. cbn [op_of]. destruct CJ as (_ & _ & ->). reflexivity. Qed.

  Context {R : Type} (scale : T -> R -> T) (emb : R -> T) (div : T -> R -> T) (RS : real_scalars zero mul conj scale emb div).
  Lemma div_mul x r : emb r <> zero -> div x r = mul x (div one r).
  Proof. intro N. destruct RS as (_ & _ & D). pose proof (D one r N) as E1. pose proof (D x r N) as E2. transitivity (mul (div x r) (mul (div one r) (emb r))); [rewrite E1; ring|].
    transitivity (mul (mul (div x r) (emb r)) (div one r)); [ring|]. now rewrite E2. Qed.
  Lemma conj_one : conj one = one.
  Proof. destruct CJ as (_ & M & I). transitivity (mul (conj one) one); [ring|]. transitivity (mul (conj one) (conj (conj one))); [now rewrite I|]. rewrite <- M. replace (mul one (conj one)) with (conj one) by ring. apply I. Qed.
  Lemma conj_inv r : emb r <> zero -> conj (div one r) = div one r.
  Proof. intro N. destruct RS as (_ & C & D). destruct CJ as (_ & M & _). pose proof (D one r N) as E1.
    assert (E2 : mul (conj (div one r)) (emb r) = one). { rewrite <- (C r), <- M, E1. apply conj_one. }
    transitivity (mul (conj (div one r)) (mul (div one r) (emb r))); [rewrite E1; ring|]. transitivity (mul (mul (conj (div one r)) (emb r)) (div one r)); [ring|]. rewrite E2. ring. Qed.
  (** the formula of pinv: the conjugate of V^T (U / s)^T *)
  Definition inverse_of (r : nat) (U : nat -> nat -> T) (s : nat -> R) (V : nat -> nat -> T) (i j : nat) : T := conj (product r (fun i l => V l i) (fun l j => div (U j l) (s l)) i j).
  Lemma penrose_svd m n k r U s V : r <= k -> orthonormal_columns zero one add mul conj m k U -> orthonormal_rows zero one add mul conj k n V -> (forall l, l < r -> emb (s l) <> zero) ->
    penrose zero add mul conj m n (product r (fun i l => scale (U i l) (s l)) V) (inverse_of r U s V).
  Proof. intros Hr HU HV HN. set (W := fun l j => mul (div one (s l)) (conj (U j l))). set (X := fun i l => scale (U i l) (s l)).
    assert (XW : forall i j, product r X W i j = product r U (op_of conj ConjTrans U) i j).
    { intros i j. unfold Spec_Blas.product. apply sum_over_ext. intros l Hl. unfold X, W. cbn [op_of]. pose proof (proj2 (proj2 RS) one (s l) (HN l Hl)) as E. rewrite (proj1 RS). transitivity (mul (mul (div one (s l)) (emb (s l))) (mul (U i l) (conj (U j l)))); [ring|]. rewrite E. ring. }
    assert (P : penrose zero add mul conj m n (product r X V) (product r (op_of conj ConjTrans V) W)).
    { apply penrose_factors.
      - intros a b Ha Hb. apply HV; lia.
      - intros a b Ha Hb. transitivity (mul (mul (div one (s a)) (emb (s b))) (product m (op_of conj ConjTrans U) U a b)).
        + unfold Spec_Blas.product. rewrite <- sum_scale. apply sum_over_ext. intros i Hi. unfold X, W. cbn [op_of]. rewrite (proj1 RS). ring.
        + rewrite HU by lia. unfold Spec_Blas.identity. destruct (Nat.eqb_spec a b) as [->|]; [|ring]. rewrite (proj2 (proj2 RS)) by auto. ring.
      - intros i j Hi Hj. rewrite !XW, conj_product. apply product_ext; auto. intros l Hl. cbn [op_of]. apply (proj2 (proj2 CJ)). }
    assert (IB : forall i j, inverse_of r U s V i j = product r (op_of conj ConjTrans V) W i j).
    { intros i j. unfold inverse_of. unfold Spec_Blas.product. rewrite conj_sum. apply sum_over_ext. intros l Hl. cbn [op_of]. destruct CJ as (_ & M & _). rewrite M. f_equal. rewrite (div_mul (U j l)) by auto. rewrite M, conj_inv by auto. unfold W. ring. }
    destruct P as (P1 & P2 & P3 & P4). set (B := product r (op_of conj ConjTrans V) W) in *.
    split; [|split; [|split]].
    - intros i j Hi Hj. etransitivity; [|exact (P1 i j Hi Hj)]. apply product_ext; auto. intros k0 _. apply product_ext; auto.
    - intros i j Hi Hj. rewrite IB. rewrite <- (P2 i j Hi Hj). apply product_ext; auto. intros k0 _. apply product_ext; auto.
    - intros i j Hi Hj. rewrite (product_ext n _ (inverse_of r U s V) (product r X V) B j i), (product_ext n _ (inverse_of r U s V) (product r X V) B i j) by auto. auto.
    - intros i j Hi Hj. rewrite (product_ext m (inverse_of r U s V) _ B (product r X V) j i), (product_ext m (inverse_of r U s V) _ B (product r X V) i j) by auto. auto. Qed.
  Lemma penrose_ext m n A A' B : (forall i j, i < m -> j < n -> A i j = A' i j) -> penrose zero add mul conj m n A B -> penrose zero add mul conj m n A' B.
  Proof. intros E (P1 & P2 & P3 & P4). assert (X1 : forall i j, i < m -> product n A' B i j = product n A B i j) by (intros; apply product_ext; auto; intros; symmetry; auto). assert (X2 : forall i j, j < n -> product m B A' i j = product m B A i j) by (intros; apply product_ext; auto; intros; symmetry; auto).
    split; [|split; [|split]].
    - intros i j Hi Hj. rewrite <- E by auto. etransitivity; [|exact (P1 i j Hi Hj)]. apply product_ext; auto; intros; symmetry; auto.
    - intros i j Hi Hj. etransitivity; [|exact (P2 i j Hi Hj)]. apply product_ext; auto.
    - intros i j Hi Hj. rewrite !X1 by auto. auto.
    - intros i j Hi Hj. rewrite !X2 by auto. auto. Qed.
  (** the remaining singular values are zero: nothing was cut off *)
  Lemma product_cut k r A B i j : r <= k -> (forall l, r <= l < k -> A i l = zero) -> product r A B i j = product k A B i j.
  Proof. intros Hr Z. unfold Spec_Blas.product, Spec_Blas.sum_over, total. replace k with (r + (k - r)) by lia. rewrite seq_app, map_app, fold_right_app. f_equal. symmetry. cbn [Nat.add].
    assert (X : forall l, (forall x, In x l -> A i x = zero) -> fold_right add zero (map (fun x => mul (A i x) (B x j)) l) = zero).
    { induction l as [|x l IH]; [reflexivity|]. intro H. cbn [map fold_right]. rewrite H by now left. rewrite IH by (intros; apply H; now right). ring. }
    apply X. intros x Hx. apply in_seq in Hx. apply Z. lia. Qed.
End Algebra.
