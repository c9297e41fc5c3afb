(** Determinants: what an LU factorisation says about the determinant. *)
From Coq Require Import Ring Ring_theory.
From Verif Require Import Base Spec Spec_Matmul Spec_Tri Spec_Blas P_Blas2 Spec_Linalg.

Section Determinant.
  Context {T : Type} (zero one : T) (add mul sub : T -> T -> T) (opp : T -> T).
  Context (RT : ring_theory zero one add mul sub opp eq).
  Add Ring T_ring : RT.
  Context (n : nat) (D : (nat -> nat -> T) -> T) (HD : is_determinant zero one add mul n D).
  Notation sum_over := (sum_over zero add).
  Notation with_row := (@with_row T).
  Lemma D_ext A B : (forall i j, i < n -> j < n -> A i j = B i j) -> D A = D B. Proof. apply HD. Qed.
  Lemma D_linear A r c x y : r < n -> D (with_row A r (fun j => add (mul c (x j)) (y j))) = add (mul c (D (with_row A r x))) (D (with_row A r y)). Proof. apply HD. Qed.
  Lemma D_equal A r s : r < n -> s < n -> r <> s -> (forall j, j < n -> A r j = A s j) -> D A = zero. Proof. apply HD. Qed.
  Lemma D_one : D (identity zero one) = one. Proof. apply HD. Qed.
  Lemma D_zero_row A r : r < n -> D (with_row A r (fun _ => zero)) = zero.
  Proof. intro Hr. pose proof (D_linear A r one (fun _ => zero) (fun _ => zero) Hr) as X. assert (Y : D (with_row A r (fun _ => add (mul one zero) zero)) = D (with_row A r (fun _ => zero))). { apply D_ext. intros i j _ _. unfold Spec_Linalg.with_row. destruct (i =? r); ring. }
    cbv beta in X. rewrite Y in X. set (z := D _) in *. assert (z = add z (add z (opp z))) by ring. rewrite H. replace (add z (add z (opp z))) with (add (add (mul one z) z) (opp z)) by ring. rewrite <- X. ring. Qed.
  Lemma D_scale A r c x : r < n -> D (with_row A r (fun j => mul c (x j))) = mul c (D (with_row A r x)).
  Proof. intro Hr. transitivity (D (with_row A r (fun j => add (mul c (x j)) zero))). { apply D_ext. intros i j _ _. unfold Spec_Linalg.with_row. destruct (i =? r); ring. } rewrite (D_linear A r c x (fun _ => zero)) by auto. rewrite D_zero_row by auto. ring. Qed.
  (** adding multiples of other rows changes nothing *)
  Lemma D_add A r x c ks : r < n -> (forall k, In k ks -> k < n /\ k <> r) -> D (with_row A r (fun j => fold_right (fun k acc => add (mul (c k) (A k j)) acc) (x j) ks)) = D (with_row A r x).
  Proof. intros Hr. induction ks as [|k ks IH]; [reflexivity|]. intro H. cbn [fold_right]. rewrite (D_linear A r (c k) (A k) (fun j => fold_right _ (x j) ks)) by auto. rewrite IH by (intros; apply H; now right).
    destruct (H k (or_introl eq_refl)) as (Hk & Nk). rewrite (D_equal (with_row A r (A k)) r k); auto; [ring|]. intros j _. unfold Spec_Linalg.with_row. rewrite Nat.eqb_refl. destruct (Nat.eqb_spec k r); [contradiction|reflexivity]. Qed.
  Lemma D_add1 A r s c : r < n -> s < n -> s <> r -> D (with_row A r (fun j => add (mul c (A s j)) (A r j))) = D A.
  Proof. intros Hr Hs N. pose proof (D_add A r (A r) (fun _ => c) [s] Hr) as X. cbn [fold_right] in X. rewrite X by (intros k [<-|[]]; auto). apply D_ext. intros i j _ _. unfold Spec_Linalg.with_row. destruct (Nat.eqb_spec i r); subst; reflexivity. Qed.
  Lemma D_exchange A r s : r < n -> s < n -> r <> s -> D (exchanged A r s) = opp (D A).
  Proof. intros Hr Hs N. set (A1 := with_row A r (fun j => add (mul one (A s j)) (A r j))). set (A2 := with_row A1 s (fun j => add (mul (opp one) (A1 r j)) (A1 s j))). set (A3 := with_row A2 r (fun j => add (mul one (A2 s j)) (A2 r j))).
    assert (E3 : D A3 = D A). { unfold A3. rewrite D_add1 by auto. unfold A2. rewrite D_add1 by auto. unfold A1. now rewrite D_add1 by auto. }
    transitivity (D (with_row A3 s (fun j => mul (opp one) (A3 s j)))).
    - apply D_ext. intros i j _ _. unfold exchanged, A3, A2, A1, Spec_Linalg.with_row. destruct (Nat.eqb_spec i r) as [->|Ni]; [|destruct (Nat.eqb_spec i s) as [->|Ns]]; repeat match goal with |- context[?a =? ?b] => destruct (Nat.eqb_spec a b); try lia end; ring.
    - rewrite D_scale by auto. rewrite <- E3. transitivity (mul (opp one) (D A3)); [|ring]. f_equal. apply D_ext. intros i j _ _. unfold Spec_Linalg.with_row. destruct (Nat.eqb_spec i s); subst; reflexivity. Qed.
  Lemma D_exchange_same A r : D (exchanged A r r) = D A. Proof. apply D_ext. intros i j _ _. unfold exchanged. destruct (Nat.eqb_spec i r); subst; reflexivity. Qed.
  Definition flips (i : nat) (p : list Z) : nat := length (filter (fun ip => negb (Z.of_nat (fst ip) =? snd ip)%Z) (combine (seq i (length p)) (map (fun q => q - 1)%Z p))).
  Definition signed (k : nat) (x : T) : T := if Nat.even k then x else opp x.
  Lemma signed_S k x : signed (S k) x = opp (signed k x). Proof. unfold signed. rewrite Nat.even_succ, <- Nat.negb_even. destruct (Nat.even k); cbn; ring. Qed.
  Lemma signed_twice k x : signed k (signed k x) = x. Proof. unfold signed. destruct (Nat.even k); ring. Qed.
  Lemma D_pivoted : forall p i A, i + length p = n -> Forall (fun q => 1 <= q <= Z.of_nat n)%Z p -> D (pivoted i p A) = signed (flips i p) (D A).
  Proof. induction p as [|q p IH]; intros i A L F. - reflexivity.
    - cbn [length] in L. pose proof (Forall_inv F) as Hq. pose proof (Forall_inv_tail F) as Fp. cbv beta in Hq. cbn [pivoted]. rewrite IH by (auto; lia). unfold flips. cbn [length seq map combine filter fst snd]. fold (flips (S i) p).
      destruct (Z.eqb_spec (Z.of_nat i) (q - 1)) as [E|E]; cbn [negb].
      + rewrite <- E, Nat2Z.id, D_exchange_same. reflexivity.
      + rewrite D_exchange by lia. cbn [length]. fold (flips (S i) p). rewrite signed_S. unfold signed. destruct (Nat.even _); ring. Qed.
  (** ** triangular factors *)
  Notation L F := (triangular zero one Lower true F). Notation U F := (triangular zero one Upper false F).
  Lemma sum_split K t f : t < K -> (forall k, t < k < K -> f k = zero) -> sum_over K f = fold_right (fun k acc => add (f k) acc) (f t) (seq 0 t).
  Proof. intros Ht Hz. unfold Spec_Blas.sum_over, total. replace K with (t + (1 + (K - t - 1))) by lia. rewrite seq_app, map_app, fold_right_app. cbn [Nat.add seq map fold_right].
    replace (fold_right add zero (map f (seq (S t) (K - t - 1)))) with zero. { replace (add (f t) zero) with (f t) by ring. generalize (f t). generalize (seq 0 t). intros l x. induction l as [|k l IH]; [reflexivity|]. cbn. now rewrite IH. }
    symmetry. assert (X : forall l, (forall k, In k l -> t < k < K) -> fold_right add zero (map f l) = zero). { induction l as [|k l IH]; [reflexivity|]. intro H. cbn. rewrite IH, Hz; [ring|apply H; now left|]. intros; apply H; now right. } apply X. intros k Hk. apply in_seq in Hk. lia. Qed.
  Lemma D_lower F X : D (product zero add mul n (L F) X) = D X.
  Proof. set (M := product zero add mul n (L F) X). set (H := fun t i j => if i <? t then X i j else M i j).
    assert (St : forall t, t <= n -> D (H t) = D M).
    { induction t as [|t IH]; intro Ht. { now apply D_ext. } rewrite <- IH by lia. symmetry.
      transitivity (D (with_row (H t) t (fun j => fold_right (fun k acc => add (mul (F t k) (H t k j)) acc) (X t j) (seq 0 t)))).
      - apply D_ext. intros i j Hi Hj. unfold Spec_Linalg.with_row. destruct (Nat.eqb_spec i t) as [->|Ni]; [|reflexivity]. unfold H at 1. rewrite Nat.ltb_irrefl. unfold M, product. rewrite (sum_split n t); [|lia|intros k Hk; unfold triangular; cbn [andb in_triangle]; destruct (Nat.eqb_spec t k); [lia|]; destruct (Nat.leb_spec k t); [lia|ring]].
        unfold triangular at 2. cbn [andb]. rewrite Nat.eqb_refl. replace (mul one (X t j)) with (X t j) by ring.
        assert (Y : forall l, (forall k, In k l -> k < t) -> fold_right (fun k acc => add (mul (L F t k) (X k j)) acc) (X t j) l = fold_right (fun k acc => add (mul (F t k) (H t k j)) acc) (X t j) l).
        { induction l as [|k l IHl]; [reflexivity|]. intro Hl. cbn [fold_right]. rewrite IHl by (intros; apply Hl; now right). f_equal. pose proof (Hl k (or_introl eq_refl)). unfold triangular. cbn [andb in_triangle]. destruct (Nat.eqb_spec t k); [lia|]. destruct (Nat.leb_spec k t); [|lia]. unfold H. destruct (Nat.ltb_spec k t); [reflexivity|lia]. }
        apply Y. intros k Hk. apply in_seq in Hk. lia.
      - rewrite D_add by (try lia; intros k Hk; apply in_seq in Hk; lia). apply D_ext. intros i j Hi Hj. unfold Spec_Linalg.with_row, H. destruct (Nat.eqb_spec i t) as [->|Ni]. { destruct (Nat.ltb_spec t (S t)); [reflexivity|lia]. } destruct (Nat.ltb_spec i t), (Nat.ltb_spec i (S t)); try lia; reflexivity. }
    rewrite <- (St n) by lia. apply D_ext. intros i j Hi Hj. unfold H. destruct (Nat.ltb_spec i n); [reflexivity|lia]. Qed.
  Lemma unit_sum c j x ks : NoDup ks -> fold_right (fun k acc => add (mul (c k) (identity zero one k j)) acc) x ks = add (if in_dec Nat.eq_dec j ks then c j else zero) x.
  Proof. induction 1 as [|k ks Hk N IH]; [cbn; ring|]. cbn [fold_right]. rewrite IH. unfold identity. destruct (Nat.eqb_spec k j) as [->|Ne].
    - destruct (in_dec Nat.eq_dec j ks); [contradiction|]. destruct (in_dec Nat.eq_dec j (j :: ks)) as [|X]; [ring|]. exfalso. apply X. now left.
    - destruct (in_dec Nat.eq_dec j ks) as [I|I], (in_dec Nat.eq_dec j (k :: ks)) as [J|J]; try ring; exfalso; [apply J; now right|destruct J; auto]. Qed.
  Lemma D_upper F : D (U F) = total one mul (map (fun i => F i i) (rev (seq 0 n))).
  Proof. set (G := fun t i j => if i <? t then U F i j else identity zero one i j).
    assert (St : forall t, t <= n -> D (G t) = total one mul (map (fun i => F i i) (rev (seq 0 t)))).
    { induction t as [|t IH]; intro Ht. { cbn. rewrite <- D_one. now apply D_ext. } rewrite seq_S, rev_app_distr, map_app. cbn [rev app map Nat.add]. change (total one mul (?a :: ?b)) with (mul a (total one mul b)). rewrite <- IH by lia. clear IH.
      transitivity (D (with_row (G (S t)) t (fun j => fold_right (fun k acc => add (mul (F t k) (G (S t) k j)) acc) (mul (F t t) (identity zero one t j)) (seq (S t) (n - S t))))).
      - apply D_ext. intros i j Hi Hj. unfold Spec_Linalg.with_row. destruct (Nat.eqb_spec i t) as [->|Ni]; [|reflexivity]. unfold G at 1. destruct (Nat.ltb_spec t (S t)); [|lia].
        assert (Y : forall l x, (forall k, In k l -> t < k) -> fold_right (fun k acc => add (mul (F t k) (G (S t) k j)) acc) x l = fold_right (fun k acc => add (mul (F t k) (identity zero one k j)) acc) x l).
        { induction l as [|k l IHl]; [reflexivity|]. intros x Hl. cbn [fold_right]. rewrite IHl by (intros; apply Hl; now right). f_equal. pose proof (Hl k (or_introl eq_refl)). unfold G. destruct (Nat.ltb_spec k (S t)); [lia|reflexivity]. }
        rewrite Y by (intros k Hk; apply in_seq in Hk; lia). rewrite unit_sum by apply seq_NoDup. unfold triangular. cbn [andb in_triangle]. unfold identity. destruct (in_dec Nat.eq_dec j (seq (S t) (n - S t))) as [I|I].
        + apply in_seq in I. destruct (Nat.leb_spec t j); [|lia]. destruct (Nat.eqb_spec t j); [lia|]. ring.
        + destruct (Nat.eqb_spec t j) as [->|Ne]. { rewrite Nat.leb_refl. ring. } destruct (Nat.leb_spec t j); [|ring]. exfalso. apply I. apply in_seq. lia.
      - rewrite D_add by (try lia; intros k Hk; apply in_seq in Hk; lia). rewrite D_scale by lia. f_equal. apply D_ext. intros i j Hi Hj. unfold Spec_Linalg.with_row, G. destruct (Nat.eqb_spec i t) as [->|Ni]. { rewrite Nat.ltb_irrefl. reflexivity. } destruct (Nat.ltb_spec i t), (Nat.ltb_spec i (S t)); try lia; reflexivity. }
    rewrite <- (St n) by lia. apply D_ext. intros i j Hi Hj. unfold G. destruct (Nat.ltb_spec i n); [reflexivity|lia]. Qed.
  Lemma total_rev {X} (e : X) op : (forall a b c, op a (op b c) = op (op a b) c) -> (forall a b, op a b = op b a) -> forall l, total e op (rev l) = total e op l.
  Proof. intros As Cm. assert (G : forall l x, fold_right op x (rev l) = fold_right op x l). { induction l as [|a l IH]; intro x; [reflexivity|]. cbn [rev fold_right]. rewrite fold_right_app. cbn [fold_right]. rewrite IH. clear IH. induction l as [|b l IH]; [reflexivity|]. cbn [fold_right]. rewrite IH. rewrite As, As. f_equal. apply Cm. } intros l. apply G. Qed.
  Lemma lu_determinant A F p : lu_factored zero one add mul n A F p -> D A = signed (flips 0 p) (total one mul (map (fun i => F i i) (seq 0 n))).
  Proof. intros (Lp & Fp & E & _). pose proof (D_pivoted p 0 A ltac:(lia) Fp) as X. rewrite <- (D_ext _ _ E) in X. rewrite D_lower, D_upper, map_rev, total_rev in X by (intros; ring). rewrite X. symmetry. apply signed_twice. Qed.
End Determinant.

Section Expansion.
  Context {T : Type} (zero one : T) (add mul sub : T -> T -> T) (opp : T -> T).
  Context (RT : ring_theory zero one add mul sub opp eq).
  Add Ring T_ring2 : RT.
  Notation det := (determinant zero one add mul opp).
  Notation sum_over := (sum_over zero add).
  Notation with_row := (@with_row T).
  Lemma sum_linear K c f g : sum_over K (fun i => add (mul c (f i)) (g i)) = add (mul c (sum_over K f)) (sum_over K g).
  Proof. unfold Spec_Blas.sum_over, total. induction (seq 0 K) as [|k l IH]; cbn [map fold_right]; [ring|]. rewrite IH. ring. Qed.
  Lemma sum_zero K f : (forall k, k < K -> f k = zero) -> sum_over K f = zero.
  Proof. intro H. rewrite (sum_over_ext zero add K f (fun _ => zero)) by auto. clear H. unfold Spec_Blas.sum_over, total. induction (seq 0 K) as [|k l IH]; cbn [map fold_right]; [reflexivity|]. rewrite IH. ring. Qed.
  Lemma det_ext : forall n A B, (forall i j, i < n -> j < n -> A i j = B i j) -> det n A = det n B.
  Proof. induction n as [|n IH]; intros A B H; [reflexivity|]. cbn [determinant]. apply sum_over_ext. intros i Hi. rewrite (H i 0) by lia. f_equal. apply IH. intros r c Hr Hc. unfold minor. apply H; [destruct (r <? i); lia|lia]. Qed.
  Definition down (i r : nat) : nat := if r <? i then r else r - 1.
  Lemma minor_with A r x i : i <> r -> forall a c, minor i (with_row A r x) a c = with_row (minor i A) (down i r) (fun j => x (S j)) a c.
  Proof. intros N a c. unfold minor, Spec_Linalg.with_row, down. destruct (Nat.ltb_spec a i), (Nat.ltb_spec r i); repeat match goal with |- context[?a =? ?b] => destruct (Nat.eqb_spec a b); try lia end; reflexivity. Qed.
  Lemma minor_same A r x : forall a c, minor r (with_row A r x) a c = minor r A a c.
  Proof. intros a c. unfold minor, Spec_Linalg.with_row. destruct (Nat.ltb_spec a r); match goal with |- context[?a =? ?b] => destruct (Nat.eqb_spec a b); try lia end; reflexivity. Qed.
  Lemma det_minor n A r x i : i <> r -> det n (minor i (with_row A r x)) = det n (with_row (minor i A) (down i r) (fun j => x (S j))). Proof. intro N. apply det_ext. intros a c _ _. now apply minor_with. Qed.
  Lemma det_minor_same n A r x : det n (minor r (with_row A r x)) = det n (minor r A). Proof. apply det_ext. intros a c _ _. apply minor_same. Qed.
  Lemma det_linear : forall n A r c x y, r < n -> det n (with_row A r (fun j => add (mul c (x j)) (y j))) = add (mul c (det n (with_row A r x))) (det n (with_row A r y)).
  Proof. induction n as [|n IH]; intros A r c x y Hr; [lia|]. cbn [determinant]. rewrite <- sum_linear. apply sum_over_ext. intros i Hi. destruct (Nat.eq_dec i r) as [->|N].
    - rewrite !det_minor_same. unfold Spec_Linalg.with_row. rewrite Nat.eqb_refl. destruct (Nat.even r); ring.
    - rewrite !(fun x => det_minor n A r x i N). rewrite IH by (unfold down; destruct (Nat.ltb_spec r i); lia). assert (W : forall v, with_row A r v i 0 = A i 0) by (intro v; unfold Spec_Linalg.with_row; destruct (Nat.eqb_spec i r); [contradiction|reflexivity]). rewrite !W. destruct (Nat.even i); ring. Qed.
  Lemma sum_two K r f : S r < K -> (forall k, k < K -> k <> r -> k <> S r -> f k = zero) -> sum_over K f = add (f r) (f (S r)).
  Proof. intros Hr Hz. unfold Spec_Blas.sum_over, total. replace K with (r + (2 + (K - r - 2))) by lia. rewrite seq_app, map_app, fold_right_app. cbn [Nat.add seq map fold_right].
    assert (X : forall l x, (forall k, In k l -> f k = zero) -> fold_right add x (map f l) = x). { induction l as [|k l IHl]; [reflexivity|]. intros x H. cbn. rewrite IHl, H; [ring|now left|]. intros; apply H; now right. }
    rewrite (X (seq 0 r)) by (intros k Hk; apply in_seq in Hk; apply Hz; lia). rewrite X by (intros k Hk; apply in_seq in Hk; apply Hz; lia). ring. Qed.
  (** two adjacent equal rows *)
  Lemma det_adjacent : forall n A r, S r < n -> (forall j, j < n -> A r j = A (S r) j) -> det n A = zero.
  Proof. induction n as [|n IH]; intros A r Hr E; [lia|]. cbn [determinant]. rewrite (sum_two (S n) r); [|lia|].
    2:{ intros k Hk N1 N2. rewrite (IH (minor k A) (down k r)); [ring|unfold down; destruct (Nat.ltb_spec r k); lia|]. intros j Hj. unfold minor, down. destruct (Nat.ltb_spec r k).
      - destruct (Nat.ltb_spec r k), (Nat.ltb_spec (S r) k); try lia. apply E. lia.
      - destruct (Nat.ltb_spec (r - 1) k), (Nat.ltb_spec (S (r - 1)) k); try lia. replace (S (r - 1)) with r by lia. apply E. lia. }
    rewrite (E 0) by lia. rewrite (det_ext n (minor r A) (minor (S r) A)).
    - rewrite Nat.even_succ, <- Nat.negb_even. destruct (Nat.even r); cbn [negb]; ring.
    - intros a c Ha Hc. unfold minor. destruct (Nat.ltb_spec a r), (Nat.ltb_spec a (S r)); try lia; try reflexivity. replace a with r by lia. symmetry. apply E. lia. Qed.
  (** exchanging adjacent rows *)
  Lemma det_swap n A r : S r < n -> det n (exchanged A r (S r)) = opp (det n A).
  Proof. intro Hr. assert (Z : forall x, det n (with_row (with_row A r x) (S r) x) = zero). { intro x. apply (det_adjacent n _ r Hr). intros j _. unfold Spec_Linalg.with_row. rewrite Nat.eqb_refl. destruct (Nat.eqb_spec r (S r)); [lia|]. now rewrite Nat.eqb_refl. }
    assert (Cm : forall x y, det n (with_row (with_row A r x) (S r) y) = det n (with_row (with_row A (S r) y) r x)). { intros x y. apply det_ext. intros i j _ _. unfold Spec_Linalg.with_row. destruct (Nat.eqb_spec i r), (Nat.eqb_spec i (S r)); try lia; reflexivity. }
    pose proof (Z (fun j => add (mul one (A r j)) (A (S r) j))) as X. rewrite (det_linear n (with_row A r _) (S r) one (A r) (A (S r)) Hr) in X. rewrite !Cm in X. rewrite !(det_linear n _ r one (A r) (A (S r))) in X by lia. rewrite <- !Cm in X. rewrite !Z in X.
    assert (E1 : det n (with_row (with_row A r (A r)) (S r) (A (S r))) = det n A). { apply det_ext. intros i j _ _. unfold Spec_Linalg.with_row. destruct (Nat.eqb_spec i (S r)) as [->|]; [reflexivity|]. destruct (Nat.eqb_spec i r) as [->|]; reflexivity. }
    assert (E2 : det n (with_row (with_row A r (A (S r))) (S r) (A r)) = det n (exchanged A r (S r))). { apply det_ext. intros i j _ _. unfold Spec_Linalg.with_row, exchanged. destruct (Nat.eqb_spec i (S r)), (Nat.eqb_spec i r); try lia; reflexivity. }
    rewrite E1, E2 in X. set (a := det n A) in *. set (b := det n (exchanged A r (S r))) in *. transitivity (add (add (mul one (add (mul one zero) b)) (add (mul one a) zero)) (opp a)); [ring|]. rewrite X. ring. Qed.
  Lemma det_equal n : forall d A r, r + 1 + d < n -> (forall j, j < n -> A r j = A (r + 1 + d) j) -> det n A = zero.
  Proof. induction d as [|d IH]; intros A r Hr E. { apply (det_adjacent n A r); [lia|]. intros j Hj. rewrite E by auto. f_equal. lia. }
    set (s := r + 1 + d). assert (X : det n (exchanged A s (S s)) = zero). { apply (IH _ r); [lia|]. intros j Hj. unfold exchanged. fold s. rewrite Nat.eqb_refl. destruct (Nat.eqb_spec r s), (Nat.eqb_spec r (S s)); try lia. rewrite E by auto. f_equal. lia. }
    rewrite det_swap in X by lia. replace (det n A) with (opp (opp (det n A))) by ring. rewrite X. ring. Qed.
  Lemma determinant_ok n : is_determinant zero one add mul n (det n).
  Proof. split; [apply det_ext|]. split; [intros; now apply det_linear|]. split.
    - intros A r s Hr Hs N E. destruct (Nat.lt_ge_cases r s).
      + apply (det_equal n (s - r - 1) A r); [lia|]. intros j Hj. rewrite E by auto. f_equal. lia.
      + apply (det_equal n (r - s - 1) A s); [lia|]. intros j Hj. rewrite <- E by auto. f_equal. lia.
    - induction n as [|n IH]; [reflexivity|]. cbn [determinant]. rewrite (sum_split zero one add mul sub opp RT (S n) 0); [|lia|].
      + cbn [seq fold_right Nat.even]. rewrite (det_ext n _ (identity zero one)) by reflexivity. rewrite IH. unfold identity. cbn. ring.
      + intros i Hi. unfold identity at 1 2. destruct i as [|i]; [lia|]. cbn [Nat.eqb]. destruct (Nat.even (S i)); ring. Qed.
End Expansion.
