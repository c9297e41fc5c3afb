(** Algebra of the generalised eigenvalue problem. *)
From Coq Require Import Ring_theory Ring Setoid Morphisms.
From Verif Require Import Base Spec Spec_Matmul Spec_Tri Spec_Blas Spec_Linalg P_Linalg5 M_Faer Spec_Faer.

Record eqm {T} (n : nat) (A B : nat -> nat -> T) : Prop := mkEqm { eqm_at : forall i j, i < n -> j < n -> A i j = B i j }.
Arguments mkEqm {T n A B}. Arguments eqm_at {T n A B}.
#[global] Instance eqm_equiv {T} n : Equivalence (@eqm T n).
Proof. split; [intro A; constructor; reflexivity|intros A B H; constructor; intros i j Hi Hj; symmetry; now apply H|intros A B C H K; constructor; intros i j Hi Hj; etransitivity; [apply H|apply K]; auto]. Qed.
Section Algebra.
  Context {T : Type} (zero one : T) (add mul sub : T -> T -> T) (opp : T -> T) (RT : ring_theory zero one add mul sub opp eq).
  Add Ring TRing : RT.
  Notation identity := (identity zero one).
  Context (n : nat).
  Notation P := (product zero add mul n).
  #[local] Instance product_proper : Proper (eqm n ==> eqm n ==> eqm n) P.
  Proof. intros A A' HA B B' HB. constructor. intros i j Hi Hj. apply product_ext; intros; [apply HA|apply HB]; auto. Qed.
  Lemma assoc A B C : eqm n (P (P A B) C) (P A (P B C)). Proof. constructor. intros i j _ _. apply (product_assoc zero one add mul sub opp RT). Qed.
  Lemma id_l A : eqm n (P identity A) A. Proof. constructor. intros i j Hi _. now apply (product_id_l zero one add mul sub opp RT). Qed.
  Lemma id_r A : eqm n (P A identity) A. Proof. constructor. intros i j _ Hj. now apply (product_id_r zero one add mul sub opp RT). Qed.
  Definition tr (A : nat -> nat -> T) (i j : nat) : T := A j i.
  #[local] Instance tr_proper : Proper (eqm n ==> eqm n) tr. Proof. intros A B H. constructor. intros i j Hi Hj. now apply H. Qed.
  Lemma tr_product A B : eqm n (tr (P A B)) (P (tr B) (tr A)).
  Proof. constructor. intros i j _ _. unfold tr, product, sum_over. f_equal. apply map_ext. intro. ring. Qed.
  (** columns scaled *)
  Definition scaled (V : nat -> nat -> T) (w : nat -> T) (i j : nat) : T := mul (V i j) (w j).
  #[local] Instance scaled_proper : Proper (eqm n ==> eq ==> eqm n) scaled. Proof. intros A B H w w' <-. constructor. intros i j Hi Hj. unfold scaled. f_equal. now apply H. Qed.
  Lemma scaled_product A V w : eqm n (P A (scaled V w)) (scaled (P A V) w).
  Proof. constructor. intros i j _ _. unfold scaled, product. rewrite <- (sum_scale_r zero one add mul sub opp RT). unfold sum_over. f_equal. apply map_ext. intro. ring. Qed.
  (** a left inverse is a right inverse *)
  Lemma inverse_sides L W Z : eqm n (P W L) identity -> eqm n (P L Z) identity -> eqm n W Z.
  Proof. intros HW HZ. transitivity (P W (P L Z)); [rewrite HZ; now rewrite id_r|]. rewrite <- assoc, HW. apply id_l. Qed.
  Lemma cancel_l L W X Y : eqm n (P W L) identity -> eqm n (P L X) (P L Y) -> eqm n X Y.
  Proof. intros HW H. transitivity (P W (P L X)); [rewrite <- assoc, HW; now rewrite id_l|]. rewrite H, <- assoc, HW. apply id_l. Qed.
  Lemma cancel_r L Z X Y : eqm n (P L Z) identity -> eqm n (P X L) (P Y L) -> eqm n X Y.
  Proof. intros HZ H. transitivity (P (P X L) Z); [rewrite assoc, HZ; now rewrite id_r|]. rewrite H, assoc, HZ. apply id_r. Qed.

  Context (conj : T -> T) (CJ : conjugation add mul conj).
  Definition adj (A : nat -> nat -> T) : nat -> nat -> T := op_of conj ConjTrans A.
  #[local] Instance adj_proper : Proper (eqm n ==> eqm n) adj. Proof. intros A B H. constructor. intros i j Hi Hj. unfold adj. cbn. f_equal. now apply H. Qed.
  Lemma adj_product A B : eqm n (adj (P A B)) (P (adj B) (adj A)).
  Proof. constructor. intros i j _ _. unfold adj. cbn [op_of]. apply (conj_product zero one add mul sub opp RT conj CJ). Qed.
  Lemma adj_adj A : eqm n (adj (adj A)) A. Proof. constructor. intros i j _ _. unfold adj. cbn. apply CJ. Qed.
  Lemma adj_id : eqm n (adj identity) identity.
  Proof. constructor. intros i j _ _. unfold adj. cbn. unfold Spec_Blas.identity. rewrite Nat.eqb_sym. destruct (i =? j); [apply (conj_one zero one add mul sub opp RT conj CJ)|apply (conj_zero zero one add mul sub opp RT conj CJ)]. Qed.
  Definition hermitian (S : nat -> nat -> T) : Prop := eqm n (adj S) S.
  (** S = L C L^H with an invertible L: C is Hermitian with S *)
  Lemma congruence_hermitian L M C S : eqm n (P M L) identity -> hermitian S -> eqm n (P L (P C (adj L))) S -> hermitian C.
  Proof. intros HM HS E. assert (HM' : eqm n (P (adj L) (adj M)) identity) by (rewrite <- adj_product, HM; apply adj_id). apply (cancel_r (adj L) (adj M)); auto. apply (cancel_l L M); auto.
    rewrite E. transitivity (adj S); [|exact HS]. rewrite <- E. rewrite !adj_product, adj_adj. symmetry. apply assoc. Qed.

  (** type 1: S = L C L^H, B = L L^H, L^H X = V *)
  Lemma type_one L C S B V X w : eqm n (P L (P C (adj L))) S -> eqm n (P L (adj L)) B -> eqm n (P C V) (scaled V w) -> eqm n (P (adj L) X) V -> eqm n (P S X) (scaled (P B X) w).
  Proof. intros ES EB EV EX. rewrite <- ES, <- EB, !assoc, EX, EV. apply scaled_product. Qed.
  (** types 2 and 3: K is the inverse of L, S = K^H C K *)
  Lemma type_two L K C S B V X w : eqm n (P L K) identity -> eqm n (P K L) identity -> eqm n (P (adj K) (P C K)) S -> eqm n (P L (adj L)) B -> eqm n (P C V) (scaled V w) -> eqm n (P (adj L) X) V -> eqm n (P S (P B X)) (scaled X w).
  Proof. intros E1 E2 ES EB EV EX. rewrite <- ES, <- EB, !assoc, EX. rewrite <- (assoc K L V), E2, id_l, EV. rewrite <- EX at 1. rewrite scaled_product, <- assoc, <- adj_product, E1, adj_id, id_l. reflexivity. Qed.
  Lemma type_three L K C S B V X w : eqm n (P L K) identity -> eqm n (P K L) identity -> eqm n (P (adj K) (P C K)) S -> eqm n (P L (adj L)) B -> eqm n (P C V) (scaled V w) -> eqm n (P K X) V -> eqm n (P B (P S X)) (scaled X w).
  Proof. intros E1 E2 ES EB EV EX. rewrite <- ES, <- EB, !assoc, EX, EV. rewrite <- (assoc (adj L) (adj K)), <- adj_product, E2, adj_id, id_l. rewrite scaled_product, <- EX, <- assoc, E1, id_l. reflexivity. Qed.

  (** the inverse of a lower matrix is lower *)
  Lemma sum_single K f k : k < K -> (forall l, l < K -> l <> k -> f l = zero) -> sum_over zero add K f = f k.
  Proof. intros Hk H. rewrite <- (sum_pick zero one add mul sub opp RT K k f Hk). unfold sum_over. f_equal. apply map_ext_in. intros l Hl. apply in_seq in Hl. unfold Spec_Blas.identity. destruct (Nat.eqb_spec k l) as [->|N]; [ring|]. rewrite (H l) by lia. ring. Qed.
  Lemma lower_inverse L K : lower zero n L -> (forall i, i < n -> exists y, mul y (L i i) = one) -> eqm n (P L K) identity -> lower zero n K.
  Proof. intros HL U E i. induction i as [i IH] using lt_wf_ind. intros j Hi Hj Hij. pose proof (eqm_at E i j Hi Hj) as X. unfold product in X. rewrite (sum_single n _ i Hi) in X.
    - unfold Spec_Blas.identity in X. destruct (Nat.eqb_spec i j); [lia|]. destruct (U i Hi) as (y & Hy). replace (K i j) with (mul (mul y (L i i)) (K i j)) by (rewrite Hy; ring). replace (mul (mul y (L i i)) (K i j)) with (mul y (mul (L i i) (K i j))) by ring. rewrite X. ring.
    - intros l Hl Nl. destruct (Nat.lt_ge_cases l i) as [A|A]; [rewrite (IH l A j) by lia; ring|rewrite (HL i l) by lia; ring]. Qed.
  Lemma inverse_diagonal L K i : lower zero n L -> lower zero n K -> eqm n (P L K) identity -> i < n -> mul (L i i) (K i i) = one.
  Proof. intros HL HK E Hi. pose proof (eqm_at E i i Hi Hi) as X. unfold product in X. rewrite (sum_single n _ i Hi) in X.
    - unfold Spec_Blas.identity in X. now rewrite Nat.eqb_refl in X.
    - intros l Hl Nl. destruct (Nat.lt_ge_cases l i) as [A|A]; [rewrite (HK l i) by lia; ring|rewrite (HL i l) by lia; ring]. Qed.
End Algebra.
