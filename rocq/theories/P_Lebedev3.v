(** Lebedev rules: the sum of a monomial over one orbit of the octahedral group. *)
From Coq Require Import Reals Lra Psatz.
From Verif Require Import Base Spec M_Lebedev Spec_Lebedev P_Lebedev P_Lebedev2.
Local Open Scope R_scope.

Definition mono (p q r : nat) (x y z : R) : R := x ^ p * y ^ q * z ^ r.
Definition sym6 (X Y Z : R) (i j k : nat) : R :=
  X ^ i * Y ^ j * Z ^ k + X ^ i * Z ^ j * Y ^ k + Y ^ i * X ^ j * Z ^ k + Y ^ i * Z ^ j * X ^ k + Z ^ i * X ^ j * Y ^ k + Z ^ i * Y ^ j * X ^ k.
Definition squares (r : Z * (Z * Z * Z)) : R * R * R :=
  let '(c, (a, b, v)) := r in
  let A := decimal22 a * decimal22 a in
  let B := decimal22 b * decimal22 b in
  if (c =? 0)%Z then (1, 0, 0) else if (c =? 1)%Z then (1 / 2, 1 / 2, 0) else if (c =? 2)%Z then (1 / 3, 1 / 3, 1 / 3)
  else if (c =? 3)%Z then (A, A, 1 - 2 * A) else if (c =? 4)%Z then (A, 1 - A, 0) else (A, B, 1 - A - B).
Definition weight (r : Z * (Z * Z * Z)) : R := let '(c, (_, _, v)) := r in decimal22 v.
Definition share (r : Z * (Z * Z * Z)) : R := IZR (Z.of_nat (many (fst r))) / 6.
Lemma quadrature_app g h f : quadrature (g ++ h) f = quadrature g f + quadrature h f.
Proof. induction g as [|(((x, y), z), v) g IH]; cbn [app quadrature]; [ring|rewrite IH; ring]. Qed.
Lemma even_pow a i : a ^ (2 * i) = (a * a) ^ i.
Proof. rewrite pow_mult. f_equal. ring. Qed.
Lemma opp_square a : (- a) * (- a) = a * a.
Proof. ring. Qed.
Lemma orbit_even r i j k : room r = true -> let '(X, Y, Z) := squares r in quadrature (orbit r) (mono (2 * i) (2 * j) (2 * k)) = weight r * (share r * sym6 X Y Z i j k).
Proof. intro H. apply room_room in H. destruct r as (c, ((a, b), v)). destruct H as (K & H3 & H4 & H5). unfold known in K. cbn [fst] in K. unfold orbit, squares, weight, share. cbn [fst].
  destruct (code_cases c K) as [-> | [-> | [-> | [-> | [-> | ->]]]]]; unfold sph_oh; cbn [Z.eqb Pos.eqb triples quadrature]; change (many _) with 6%nat || change (many _) with 12%nat || change (many _) with 8%nat || change (many _) with 24%nat || change (many _) with 48%nat; unfold mono, sym6; rewrite ?even_pow, ?opp_square, ?Rmult_0_l, ?Rmult_1_l, ?half_square, ?third_square.
  - cbn [Z.of_nat Pos.of_succ_nat Pos.succ]. field.
  - cbn [Z.of_nat Pos.of_succ_nat Pos.succ]. field.
  - cbn [Z.of_nat Pos.of_succ_nat Pos.succ]. field.
  - specialize (H3 eq_refl). replace (1 + 1) with 2 by ring. rewrite sqrt_sqrt by exact H3. rewrite (Rmult_assoc 2). cbn [Z.of_nat Pos.of_succ_nat Pos.succ]. field.
  - specialize (H4 eq_refl). rewrite sqrt_sqrt by exact H4. cbn [Z.of_nat Pos.of_succ_nat Pos.succ]. field.
  - specialize (H5 eq_refl). rewrite sqrt_sqrt by exact H5. cbn [Z.of_nat Pos.of_succ_nat Pos.succ]. field. Qed.
(** [s] is the sign by which an even or odd power changes *)
Lemma pow_sign p : exists s, (forall x, (- x) ^ p = s * x ^ p) /\ (s = 1 /\ Nat.even p = true \/ s = -1 /\ Nat.even p = false /\ 0 ^ p = 0).
Proof. destruct (Nat.Even_or_Odd p) as [(i & ->)|(i & ->)].
  - exists 1. split; [intro x; rewrite !even_pow, opp_square; ring|]. left. split; auto. rewrite Nat.even_mul. reflexivity.
  - exists (-1). split; [intro x; rewrite !pow_add, !even_pow, opp_square; ring|]. right. split; auto. split; [rewrite Nat.even_add, Nat.even_mul; reflexivity|]. rewrite pow_add. ring. Qed.
Lemma orbit_odd r p q s : known r -> Nat.even p && Nat.even q && Nat.even s = false -> quadrature (orbit r) (mono p q s) = 0.
Proof. destruct r as (c, ((a, b), v)). unfold known. cbn [fst]. intros K O. unfold orbit. generalize (decimal22 v). generalize (decimal22 b). generalize (decimal22 a). clear a b v. intros a b v.
  destruct (pow_sign p) as (e1 & N1 & D1), (pow_sign q) as (e2 & N2 & D2), (pow_sign s) as (e3 & N3 & D3).
  destruct (code_cases c K) as [-> | [-> | [-> | [-> | [-> | ->]]]]]; unfold sph_oh; cbn [Z.eqb Pos.eqb triples quadrature]; unfold mono; rewrite ?N1, ?N2, ?N3;
    destruct D1 as [(-> & P1)|(-> & P1 & Z1)], D2 as [(-> & P2)|(-> & P2 & Z2)], D3 as [(-> & P3)|(-> & P3 & Z3)]; rewrite P1, P2, P3 in O; try discriminate O; rewrite ?Z1, ?Z2, ?Z3; ring. Qed.
Lemma grid_odd rows p q s : Forall known rows -> Nat.even p && Nat.even q && Nat.even s = false -> quadrature (grid rows) (mono p q s) = 0.
Proof. intros F O. induction F as [|r rows K F IH]; auto. cbn [grid flat_map]. rewrite quadrature_app, orbit_odd by auto. fold (grid rows). rewrite IH. ring. Qed.
Lemma squares_sum r : room r = true -> let '(X, Y, Z) := squares r in 0 <= X /\ 0 <= Y /\ 0 <= Z /\ X + Y + Z = 1.
Proof. intro H. apply room_room in H. destruct r as (c, ((a, b), v)). destruct H as (K & H3 & H4 & H5). unfold known in K. cbn [fst] in K. unfold squares.
  destruct (code_cases c K) as [-> | [-> | [-> | [-> | [-> | ->]]]]]; cbn [Z.eqb Pos.eqb]; try specialize (H3 eq_refl); try specialize (H4 eq_refl); try specialize (H5 eq_refl); repeat split; nra. Qed.
Fixpoint row_sum (rows : list (Z * (Z * Z * Z))) (i j k : nat) : R :=
  match rows with
  | [] => 0
  | r :: rows => (let '(X, Y, Z) := squares r in weight r * (share r * sym6 X Y Z i j k)) + row_sum rows i j k
  end.
Lemma grid_even rows i j k : forallb room rows = true -> quadrature (grid rows) (mono (2 * i) (2 * j) (2 * k)) = row_sum rows i j k.
Proof. induction rows as [|r rows IH]; intro H; auto. cbn [forallb] in H. apply andb_prop in H as (R & H). cbn [grid flat_map row_sum]. fold (grid rows). rewrite quadrature_app, IH by auto.
  pose proof (orbit_even r i j k R) as E. destruct (squares r) as ((X, Y), Z). now rewrite E. Qed.
Lemma row_up rows i j k : forallb room rows = true -> row_sum rows i j k = row_sum rows (S i) j k + row_sum rows i (S j) k + row_sum rows i j (S k).
Proof. induction rows as [|r rows IH]; intro H; cbn [row_sum]; [ring|]. cbn [forallb] in H. apply andb_prop in H as (R & H). rewrite IH by auto. pose proof (squares_sum r R) as S. destruct (squares r) as ((X, Y), Z).
  destruct S as (_ & _ & _ & S). replace Z with (1 - X - Y) by lra. unfold sym6. cbn [pow]. ring. Qed.
Lemma row_swap rows i j k : row_sum rows i j k = row_sum rows j i k.
Proof. induction rows as [|r rows IH]; cbn [row_sum]; auto. rewrite IH. destruct (squares r) as ((X, Y), Z). unfold sym6. ring. Qed.
Lemma row_swap' rows i j k : row_sum rows i j k = row_sum rows i k j.
Proof. induction rows as [|r rows IH]; cbn [row_sum]; auto. rewrite IH. destruct (squares r) as ((X, Y), Z). unfold sym6. ring. Qed.
(** ** the mean has the same laws *)
Definition top (i j k : nat) : Z := (double_factorial (2 * i - 1) * double_factorial (2 * j - 1) * double_factorial (2 * k - 1))%Z.
Definition bottom (n : nat) : Z := double_factorial (2 * n + 1).
Definition mean (i j k : nat) : R := IZR (top i j k) / IZR (bottom (i + j + k)).
Lemma df_pos n : (0 < double_factorial n)%Z.
Proof. enough (H : (0 < double_factorial n)%Z /\ (0 < double_factorial (S n))%Z) by tauto. induction n as [|n (IH & IH')]; [split; reflexivity|]. split; auto. change (double_factorial (S (S n))) with (Z.of_nat (S (S n)) * double_factorial n)%Z. lia. Qed.
Lemma df_odd i : double_factorial (2 * S i - 1) = ((2 * Z.of_nat i + 1) * double_factorial (2 * i - 1))%Z.
Proof. destruct i as [|i]; [reflexivity|]. replace (2 * S (S i) - 1)%nat with (S (S (2 * S i - 1))) by lia. cbn [double_factorial]. f_equal. lia. Qed.
Lemma bottom_up n : bottom (S n) = ((2 * Z.of_nat n + 3) * bottom n)%Z.
Proof. unfold bottom. replace (2 * S n + 1)%nat with (S (S (2 * n + 1))) by lia. cbn [double_factorial]. f_equal. lia. Qed.
Lemma bottom_pos n : 0 < IZR (bottom n).
Proof. apply IZR_lt, df_pos. Qed.
Lemma mean_pos i j k : 0 < mean i j k.
Proof. unfold mean. apply Rdiv_lt_0_compat; [|apply bottom_pos]. apply IZR_lt. unfold top. pose proof (df_pos (2 * i - 1)). pose proof (df_pos (2 * j - 1)). pose proof (df_pos (2 * k - 1)). nia. Qed.
Lemma mean_up i j k : mean i j k = mean (S i) j k + mean i (S j) k + mean i j (S k).
Proof. unfold mean. replace (S i + j + k)%nat with (S (i + j + k)) by lia. replace (i + S j + k)%nat with (S (i + j + k)) by lia. replace (i + j + S k)%nat with (S (i + j + k)) by lia. unfold top. rewrite !df_odd, bottom_up.
  rewrite !mult_IZR, !plus_IZR, !mult_IZR. rewrite !Nat2Z.inj_add, !plus_IZR. pose proof (bottom_pos (i + j + k)). assert (0 <= IZR (Z.of_nat i)) by (apply IZR_le; lia). assert (0 <= IZR (Z.of_nat j)) by (apply IZR_le; lia). assert (0 <= IZR (Z.of_nat k)) by (apply IZR_le; lia). field. lra. Qed.
Lemma mean_swap i j k : mean i j k = mean j i k.
Proof. unfold mean, top. replace (j + i + k)%nat with (i + j + k)%nat by lia. f_equal. f_equal. lia. Qed.
Lemma mean_swap' i j k : mean i j k = mean i k j.
Proof. unfold mean, top. replace (i + k + j)%nat with (i + j + k)%nat by lia. f_equal. f_equal. lia. Qed.
Lemma sphere_mean_even i j k : sphere_mean (2 * i) (2 * j) (2 * k) = mean i j k.
Proof. unfold sphere_mean. rewrite !Nat.even_mul. cbn [Nat.even orb andb]. unfold mean, top, bottom. now replace (2 * i + 2 * j + 2 * k + 1)%nat with (2 * (i + j + k) + 1)%nat by lia. Qed.
(** ** accuracy at one level gives it below *)
Definition close (rows : list (Z * (Z * Z * Z))) (eps : R) (i j k : nat) : Prop := Rabs (row_sum rows i j k - mean i j k) <= eps * mean i j k.
Lemma close_down rows eps i j k : forallb room rows = true -> close rows eps (S i) j k -> close rows eps i (S j) k -> close rows eps i j (S k) -> close rows eps i j k.
Proof. unfold close. intros R A B C. rewrite (row_up rows i j k R), (mean_up i j k). unfold Rabs in *. repeat destruct (Rcase_abs _); lra. Qed.
Lemma close_below rows eps d : forallb room rows = true -> (forall i j k, (i + j + k = d)%nat -> close rows eps i j k) -> forall e i j k, (i + j + k + e = d)%nat -> close rows eps i j k.
Proof. intros R H e. induction e as [|e IH]; intros i j k E; [apply H; lia|]. apply close_down; auto; apply IH; lia. Qed.
Lemma close_sorted rows eps d : (forall i j k, (i + j + k = d)%nat -> (k <= j <= i)%nat -> close rows eps i j k) -> forall i j k, (i + j + k = d)%nat -> close rows eps i j k.
Proof. intros H. assert (S1 : forall i j k, close rows eps i j k -> close rows eps j i k) by (unfold close; intros; now rewrite <- row_swap, <- mean_swap). assert (S2 : forall i j k, close rows eps i j k -> close rows eps i k j) by (unfold close; intros; now rewrite <- row_swap', <- mean_swap').
  intros i j k E. destruct (Nat.le_ge_cases i j), (Nat.le_ge_cases j k), (Nat.le_ge_cases i k).
  - apply S1, S2, S1, H; lia.
  - apply S2, S1, S2, H; lia || (apply S2, S1, S2, H; lia).
  - apply S1, S2, H; lia.
  - apply S1, H; lia.
  - apply S2, S1, H; lia.
  - apply S2, H; lia.
  - apply H; lia.
  - apply H; lia. Qed.
