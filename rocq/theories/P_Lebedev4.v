(** Lebedev rules: a check in integer arithmetic that decides the accuracy of a table for all monomials of one degree. *)
From Coq Require Import Reals Lra Psatz.
From Verif Require Import Base Spec M_Lebedev Spec_Lebedev P_Lebedev P_Lebedev2 P_Lebedev3.
Local Open Scope Z_scope.

(** ** fixed-point numbers with P binary places, rounded down *)
Definition mul_fixed (P x y : Z) : Z := Z.shiftr (x * y) P.
Fixpoint powers (P x acc : Z) (n : nat) : list Z := acc :: match n with O => [] | S n => powers P x (mul_fixed P acc x) n end.
Definition whole : Z := 3 * (scale * scale).
Definition start (P n : Z) : Z := n * 2 ^ P / whole.
Definition numerators (r : Z * (Z * Z * Z)) : Z * Z * Z :=
  let '(c, (a, b, v)) := r in
  let A := 3 * (a * a) in
  let B := 3 * (b * b) in
  if c =? 0 then (whole, 0, 0) else if c =? 1 then (whole / 2, whole / 2, 0) else if c =? 2 then (scale * scale, scale * scale, scale * scale)
  else if c =? 3 then (A, A, whole - 2 * A) else if c =? 4 then (A, whole - A, 0) else (A, B, whole - A - B).
Definition tables (P : Z) (d : nat) (r : Z * (Z * Z * Z)) : Z * (list Z * list Z * list Z) * (list Z * list Z * list Z) * list Z :=
  let '(x, y, z) := numerators r in
  let one := 2 ^ P in
  let x := start P x in
  let y := start P y in
  let z := start P z in
  let xy := mul_fixed P x y in
  let yz := mul_fixed P y z in
  let zx := mul_fixed P z x in
  (let '(c, (_, _, v)) := r in Z.of_nat (many c) * v,
   (powers P x one d, powers P y one d, powers P z one d), (powers P xy one (Nat.div2 d), powers P yz one (Nat.div2 d), powers P zx one (Nat.div2 d)), powers P (mul_fixed P xy z) one (Nat.div2 d)).
Definition orbit_fixed (P : Z) (i j k : nat) (t : Z * (list Z * list Z * list Z) * (list Z * list Z * list Z) * list Z) : Z :=
  let '(v, (px, py, pz), (pxy, pyz, pzx), pe) := t in
  let l := (i - j)%nat in
  let m := (j - k)%nat in
  let x := nth l px 0 in
  let y := nth l py 0 in
  let z := nth l pz 0 in
  mul_fixed P (nth k pe 0) (mul_fixed P (nth m pxy 0) (x + y) + mul_fixed P (nth m pyz 0) (y + z) + mul_fixed P (nth m pzx 0) (z + x)).
Definition weight_of (t : Z * (list Z * list Z * list Z) * (list Z * list Z * list Z) * list Z) : Z := fst (fst (fst t)).
Definition total_fixed (P : Z) (i j k : nat) (ts : list (Z * (list Z * list Z * list Z) * (list Z * list Z * list Z) * list Z)) : Z := fold_right (fun t s => weight_of t * orbit_fixed P i j k t + s) 0 ts.
Definition absolute (ts : list (Z * (list Z * list Z * list Z) * (list Z * list Z * list Z) * list Z)) : Z := fold_right (fun t s => Z.abs (weight_of t) + s) 0 ts.
Definition accurate (P : Z) (d : nat) (absw : Z) (ts : list (Z * (list Z * list Z * list Z) * (list Z * list Z * list Z) * list Z)) (i j k : nat) : bool :=
  let total := total_fixed P i j k ts in
  let goal := top i j k * (6 * scale) * 2 ^ P in
  10 ^ 14 * (Z.abs (total * bottom d - goal) + (12 * Z.of_nat d + 4) * absw * bottom d) <=? goal.
Definition accurate_table (P : Z) (d : nat) (rows : list (Z * (Z * Z * Z))) : bool :=
  let ts := map (tables P d) rows in
  let absw := absolute ts in
  forallb (fun k => forallb (fun j => if (k <=? j)%nat && (j + j + k <=? d)%nat then accurate P d absw ts (d - j - k) j k else true) (seq 0 (S d))) (seq 0 (S d)).

(** ** its soundness *)
Definition near (P e xh : Z) (x : R) : Prop := 0 <= xh /\ (IZR xh <= x * IZR (2 ^ P) <= IZR xh + IZR e)%R.
Lemma near_mul P ex ey A B xh yh x y : 0 <= P -> 0 <= ex -> 0 <= ey -> (0 <= x <= IZR A)%R -> (0 <= y <= IZR B)%R -> near P ex xh x -> near P ey yh y -> near P (A * ey + B * ex + 1) (mul_fixed P xh yh) (x * y).
Proof. intros HP Hx Hy Bx By (X0 & X1 & X2) (Y0 & Y1 & Y2). unfold near, mul_fixed. rewrite Z.shiftr_div_pow2 by auto. assert (S0 : 0 < 2 ^ P) by lia. set (S := 2 ^ P) in *.
  split; [apply Z.div_pos; nia|]. pose proof (Z.div_mod (xh * yh) S ltac:(lia)) as D. pose proof (Z.mod_pos_bound (xh * yh) S S0) as M. set (t := xh * yh / S) in *. set (u := xh * yh mod S) in *.
  apply (f_equal IZR) in D. rewrite plus_IZR, !mult_IZR in D. destruct M as (M0 & M1). apply IZR_le in M0. apply IZR_lt in M1. apply IZR_lt in S0. apply IZR_le in X0, Y0, Hx, Hy. rewrite !plus_IZR, !mult_IZR.
  set (s := IZR S) in *. set (th := IZR t) in *. set (a := IZR xh) in *. set (b := IZR yh) in *. set (ea := IZR ex) in *. set (eb := IZR ey) in *. set (uu := IZR u) in *.
  assert (K : (s * (x * y * s) = (x * s) * (y * s))%R) by ring. set (X := (x * s)%R) in *. set (Y := (y * s)%R) in *.
  assert (XA : (X <= IZR A * s)%R) by (unfold X; nra). assert (YB : (b <= IZR B * s)%R) by (apply Rle_trans with Y; auto; unfold Y; nra). assert (XY : (a * b <= X * Y)%R) by nra.
  assert (UP : (X * Y - a * b <= (IZR A * eb + IZR B * ea) * s)%R) by (replace (X * Y - a * b)%R with (X * (Y - b) + b * (X - a))%R by ring; nra).
  split; apply Rmult_le_reg_l with s; auto; rewrite K; nra. Qed.
Lemma near_add P ex ey xh yh x y : near P ex xh x -> near P ey yh y -> near P (ex + ey) (xh + yh) (x + y).
Proof. intros (X0 & X1 & X2) (Y0 & Y1 & Y2). unfold near. rewrite !plus_IZR. split; [lia|]. lra. Qed.
Lemma near_one P : 0 <= P -> near P 0 (2 ^ P) 1.
Proof. intro. unfold near. split; [lia|lra]. Qed.
Lemma whole_pos : (0 < IZR whole)%R.
Proof. apply IZR_lt. reflexivity. Qed.
Lemma near_start P n x : 0 <= P -> 0 <= n -> (x = IZR n / IZR whole)%R -> near P 1 (start P n) x.
Proof. intros HP H ->. unfold near, start. pose proof whole_pos as W. assert (W0 : 0 < whole) by reflexivity. assert (0 < 2 ^ P) by lia. split; [apply Z.div_pos; nia|].
  pose proof (Z.div_mod (n * 2 ^ P) whole ltac:(lia)) as D. pose proof (Z.mod_pos_bound (n * 2 ^ P) whole W0) as (M0 & M1). apply (f_equal IZR) in D. rewrite plus_IZR, !mult_IZR in D. apply IZR_le in M0. apply IZR_lt in M1.
  set (t := IZR (n * 2 ^ P / whole)) in *. set (u := IZR (n * 2 ^ P mod whole)) in *. replace (IZR n / IZR whole * IZR (2 ^ P))%R with ((IZR n * IZR (2 ^ P)) / IZR whole)%R by (field; lra). rewrite D.
  split; apply Rmult_le_reg_r with (IZR whole); auto; unfold Rdiv; rewrite Rmult_assoc, Rinv_l, Rmult_1_r by lra; lra. Qed.
Lemma pow_unit x n : (0 <= x <= 1)%R -> (0 <= x ^ n <= 1)%R.
Proof. intro H. split; [apply pow_le; tauto|]. rewrite <- (pow1 n). apply pow_incr. auto. Qed.
Lemma powers_near P e xh x n acc a ea : 0 <= P -> 0 <= e -> 0 <= ea -> (0 <= x <= 1)%R -> (0 <= a <= 1)%R -> near P e xh x -> near P ea acc a -> forall m, (m <= n)%nat -> near P (ea + Z.of_nat m * (e + 1)) (nth m (powers P xh acc n) 0) (a * x ^ m).
Proof. intros HP He Hea Bx Ba N Na m. revert n acc a ea Hea Ba Na. induction m as [|m IH]; intros n acc a ea Hea Ba Na L.
  - destruct n; cbn [powers nth pow]; rewrite Rmult_1_r; replace (ea + Z.of_nat 0 * (e + 1)) with ea by lia; auto.
  - destruct n as [|n]; [lia|]. cbn [powers nth]. replace (ea + Z.of_nat (S m) * (e + 1)) with ((1 * e + 1 * ea + 1) + Z.of_nat m * (e + 1)) by lia. replace (a * x ^ S m)%R with ((a * x) * x ^ m)%R by (cbn [pow]; ring).
    apply IH; try lia; [split; nra|]. apply near_mul; auto; lra. Qed.
Lemma powers_ok P e xh x n m : 0 <= P -> 0 <= e -> (0 <= x <= 1)%R -> near P e xh x -> (m <= n)%nat -> near P (Z.of_nat m * (e + 1)) (nth m (powers P xh (2 ^ P) n) 0) (x ^ m).
Proof. intros. rewrite <- (Rmult_1_l (x ^ m)). replace (Z.of_nat m * (e + 1)) with (0 + Z.of_nat m * (e + 1)) by lia. apply powers_near with (e := e); auto; try lia; try lra. now apply near_one. Qed.
Lemma sym6_split X Y Z i j k : (k <= j <= i)%nat -> sym6 X Y Z i j k = ((X * Y * Z) ^ k * ((X * Y) ^ (j - k) * (X ^ (i - j) + Y ^ (i - j)) + (Y * Z) ^ (j - k) * (Y ^ (i - j) + Z ^ (i - j)) + (Z * X) ^ (j - k) * (Z ^ (i - j) + X ^ (i - j))))%R.
Proof. intro H. set (l := (i - j)%nat). set (m := (j - k)%nat). replace i with (l + (m + k))%nat by lia. replace j with (m + k)%nat by lia. unfold sym6. rewrite !Rpow_mult_distr, !pow_add. ring. Qed.
Lemma numerators_ok r : room r = true -> let '(x, y, z) := numerators r in let '(X, Y, Z) := squares r in 0 <= x /\ 0 <= y /\ 0 <= z /\ (X = IZR x / IZR whole)%R /\ (Y = IZR y / IZR whole)%R /\ (Z = IZR z / IZR whole)%R.
Proof. intro H. pose proof (squares_sum r H) as S. apply room_room in H. destruct r as (c, ((a, b), v)). destruct H as (K & _). unfold known in K. cbn [fst] in K. unfold numerators, squares in *. pose proof whole_pos as W.
  assert (Q : forall a, (decimal22 a * decimal22 a = IZR (3 * (a * a)) / IZR whole)%R).
  { intro t. rewrite decimal_square. unfold whole. rewrite (mult_IZR 3 (t * t)), (mult_IZR 3 (scale * scale)). pose proof scale_pos. assert (0 < IZR (scale * scale))%R by (rewrite mult_IZR; nra). field. lra. }
  assert (P : forall n, (0 <= IZR n / IZR whole)%R -> 0 <= n). { intros n H. apply le_IZR. apply Rmult_le_compat_r with (r := IZR whole) in H; [|lra]. unfold Rdiv in H. rewrite Rmult_assoc, Rinv_l, Rmult_0_l, Rmult_1_r in H by lra. exact H. }
  assert (Sq : forall a, 0 <= 3 * (a * a)) by (intro; nia).
  destruct (code_cases c K) as [-> | [-> | [-> | [-> | [-> | ->]]]]]; cbn [Z.eqb Pos.eqb] in *.
  - repeat split; try (unfold whole, scale; lia); field; lra.
  - assert (E : IZR whole = (2 * IZR (whole / 2))%R) by (rewrite <- mult_IZR; f_equal; reflexivity). repeat split; try (unfold whole, scale; lia); try (rewrite E; field; lra).
  - assert (E : IZR whole = (3 * IZR (scale * scale))%R) by (unfold whole; now rewrite mult_IZR). repeat split; try (unfold scale; lia); rewrite E; field; lra.
  - assert (E : (1 - 2 * (decimal22 a * decimal22 a) = IZR (whole - 2 * (3 * (a * a))) / IZR whole)%R) by (rewrite Q, minus_IZR, (mult_IZR 2); field; lra). repeat split; auto. apply P. rewrite <- E. tauto.
  - assert (E : (1 - decimal22 a * decimal22 a = IZR (whole - 3 * (a * a)) / IZR whole)%R) by (rewrite Q, minus_IZR; field; lra). repeat split; auto; [apply P; rewrite <- E; tauto|lia|]. unfold Rdiv. now rewrite Rmult_0_l.
  - assert (E : (1 - decimal22 a * decimal22 a - decimal22 b * decimal22 b = IZR (whole - 3 * (a * a) - 3 * (b * b)) / IZR whole)%R) by (rewrite !Q, !minus_IZR; field; lra). repeat split; auto. apply P. rewrite <- E. tauto. Qed.
Lemma orbit_near P d r i j k : 0 <= P -> room r = true -> (k <= j <= i)%nat -> (i + j + k = d)%nat -> let '(X, Y, Z) := squares r in near P (12 * Z.of_nat d + 4) (orbit_fixed P i j k (tables P d r)) (sym6 X Y Z i j k) .
Proof. intros HP R O E. pose proof (numerators_ok r R) as N. pose proof (squares_sum r R) as S. unfold tables. destruct (numerators r) as ((x, y), z), (squares r) as ((X, Y), Z). destruct N as (x0 & y0 & z0 & Ex & Ey & Ez), S as (X0 & Y0 & Z0 & S).
  apply (near_start P) in Ex; auto. apply (near_start P) in Ey; auto. apply (near_start P) in Ez; auto. unfold orbit_fixed. set (x' := start P x) in *. set (y' := start P y) in *. set (z' := start P z) in *.
  assert (BX : (0 <= X <= 1)%R) by lra. assert (BY : (0 <= Y <= 1)%R) by lra. assert (BZ : (0 <= Z <= 1)%R) by lra.
  assert (M : forall U V u w, (0 <= U <= 1)%R -> (0 <= V <= 1)%R -> near P 1 u U -> near P 1 w V -> near P 3 (mul_fixed P u w) (U * V) /\ (0 <= U * V <= 1)%R).
  { intros U V u w BU BV NU NV. split; [|nra]. change 3 with (1 * 1 + 1 * 1 + 1). apply near_mul; auto; lia. }
  destruct (M X Y x' y' BX BY Ex Ey) as (Nxy & Bxy), (M Y Z y' z' BY BZ Ey Ez) as (Nyz & Byz), (M Z X z' x' BZ BX Ez Ex) as (Nzx & Bzx).
  assert (Nxyz : near P 5 (mul_fixed P (mul_fixed P x' y') z') (X * Y * Z)) by (change 5 with (1 * 1 + 1 * 3 + 1); apply near_mul; auto; lia). assert (Bxyz : (0 <= X * Y * Z <= 1)%R) by nra.
  set (l := (i - j)%nat). set (m := (j - k)%nat). assert (Lm : (m <= Nat.div2 d)%nat) by (pose proof (Nat.div2_odd d) as D; destruct (Nat.odd d); cbn in D; lia). assert (Lk : (k <= Nat.div2 d)%nat) by (pose proof (Nat.div2_odd d) as D; destruct (Nat.odd d); cbn in D; lia).
  assert (T : forall U V W u v w, (0 <= U <= 1)%R -> (0 <= V <= 1)%R -> (0 <= W <= 1)%R -> near P 1 u U -> near P 1 v V -> near P 3 w W -> near P (8 * Z.of_nat m + 4 * Z.of_nat l + 1) (mul_fixed P (nth m (powers P w (2 ^ P) (Nat.div2 d)) 0) (nth l (powers P u (2 ^ P) d) 0 + nth l (powers P v (2 ^ P) d) 0)) (W ^ m * (U ^ l + V ^ l)) /\ (0 <= W ^ m * (U ^ l + V ^ l) <= 2)%R).
  { intros U V W u v w BU BV BW NU NV NW. pose proof (pow_unit U l BU). pose proof (pow_unit V l BV). pose proof (pow_unit W m BW). split; [|nra]. replace (8 * Z.of_nat m + 4 * Z.of_nat l + 1) with (1 * (Z.of_nat l * (1 + 1) + Z.of_nat l * (1 + 1)) + 2 * (Z.of_nat m * (3 + 1)) + 1) by lia.
    apply near_mul; auto; try lia; try lra; [apply powers_ok; auto; lia|]. apply near_add; apply powers_ok; auto; lia. }
  destruct (T X Y (X * Y)%R x' y' (mul_fixed P x' y')) as (N1 & B1); auto. destruct (T Y Z (Y * Z)%R y' z' (mul_fixed P y' z')) as (N2 & B2); auto. destruct (T Z X (Z * X)%R z' x' (mul_fixed P z' x')) as (N3 & B3); auto. clear T M.
  rewrite sym6_split by auto. fold l m. pose proof (pow_unit (X * Y * Z) k Bxyz) as Bk.
  replace (12 * Z.of_nat d + 4) with (1 * (8 * Z.of_nat m + 4 * Z.of_nat l + 1 + (8 * Z.of_nat m + 4 * Z.of_nat l + 1) + (8 * Z.of_nat m + 4 * Z.of_nat l + 1)) + 6 * (Z.of_nat k * (5 + 1)) + 1) by lia.
  apply near_mul; auto; try lia; try lra; [apply powers_ok; auto; lia|]. apply near_add; auto. apply near_add; auto. Qed.
Lemma weight_tables P d r : weight_of (tables P d r) = Z.of_nat (many (fst r)) * snd (snd r).
Proof. destruct r as (c, ((a, b), v)). unfold tables. destruct (numerators _) as ((x, y), z). reflexivity. Qed.
Lemma weight_share r : (weight r * share r = IZR (Z.of_nat (many (fst r)) * snd (snd r)) / IZR (6 * scale))%R.
Proof. destruct r as (c, ((a, b), v)). unfold weight, share, decimal22. cbn [fst snd]. rewrite scale_real, !mult_IZR. pose proof scale_pos. field. lra. Qed.
Lemma total_near P d rows i j k : 0 <= P -> forallb room rows = true -> (k <= j <= i)%nat -> (i + j + k = d)%nat ->
  (Rabs (row_sum rows i j k * IZR (6 * scale) * IZR (2 ^ P) - IZR (total_fixed P i j k (map (tables P d) rows))) <= IZR ((12 * Z.of_nat d + 4) * absolute (map (tables P d) rows)))%R.
Proof. intros HP R O E. assert (S6 : (0 < IZR (6 * scale))%R) by (apply IZR_lt; reflexivity). induction rows as [|r rows IH].
  - cbn [row_sum map total_fixed absolute fold_right]. rewrite Z.mul_0_r, !Rmult_0_l, Rminus_0_r, Rabs_R0. lra.
  - cbn [forallb] in R. apply andb_prop in R as (R0 & R). specialize (IH R). pose proof (orbit_near P d r i j k HP R0 O E) as N. cbn [row_sum map total_fixed absolute fold_right]. fold (total_fixed P i j k (map (tables P d) rows)) (absolute (map (tables P d) rows)). destruct (squares r) as ((X, Y), Z). destruct N as (_ & N1 & N2).
    replace (weight r * (share r * sym6 X Y Z i j k))%R with ((weight r * share r) * sym6 X Y Z i j k)%R by ring. rewrite weight_share, weight_tables. set (w := Z.of_nat (many (fst r)) * snd (snd r)). rewrite Z.mul_add_distr_l, !plus_IZR, !mult_IZR, abs_IZR. rewrite (mult_IZR (12 * Z.of_nat d + 4)) in IH.
    set (o := orbit_fixed P i j k (tables P d r)) in *. set (sm := sym6 X Y Z i j k) in *. set (T := IZR (total_fixed P i j k (map (tables P d) rows))) in *. set (A := IZR (absolute (map (tables P d) rows))) in *.
    rewrite <- (mult_IZR 6 scale). set (e := IZR (12 * Z.of_nat d + 4)) in *.
    replace ((IZR w / IZR (6 * scale) * sm + row_sum rows i j k) * IZR (6 * scale) * IZR (2 ^ P) - (IZR w * IZR o + T))%R with (IZR w * (sm * IZR (2 ^ P) - IZR o) + (row_sum rows i j k * IZR (6 * scale) * IZR (2 ^ P) - T))%R by (field; lra).
    eapply Rle_trans; [apply Rabs_triang|]. apply Rplus_le_compat; auto. rewrite Rabs_mult, Rmult_comm. apply Rmult_le_compat_r; [apply Rabs_pos|]. rewrite Rabs_pos_eq by lra. lra. Qed.
Definition tiny : R := (/ 10 ^ 14)%R.
Lemma tiny_inv : (tiny * IZR (10 ^ 14) = 1)%R.
Proof. unfold tiny. rewrite <- pow_IZR with (n := 14%nat). apply Rinv_l. apply pow_nonzero. lra. Qed.
Lemma accurate_close P d rows i j k : 0 <= P -> forallb room rows = true -> (k <= j <= i)%nat -> (i + j + k = d)%nat ->
  accurate P d (absolute (map (tables P d) rows)) (map (tables P d) rows) i j k = true -> close rows tiny i j k.
Proof. intros HP R O E A. pose proof (total_near P d rows i j k HP R O E) as N. unfold accurate in A. set (T := total_fixed P i j k (map (tables P d) rows)) in *. set (W := absolute (map (tables P d) rows)) in *.
  apply Z.leb_le in A. apply IZR_le in A. rewrite mult_IZR, plus_IZR, abs_IZR, minus_IZR, (mult_IZR T), (mult_IZR (_ * W)), !(mult_IZR (top i j k * (6 * scale))), (mult_IZR (top i j k)) in A.
  unfold close, mean. rewrite E. pose proof (bottom_pos d) as B0. set (D := IZR (bottom d)) in *. set (n := IZR (top i j k)) in *. set (s6 := IZR (6 * scale)) in *. assert (S6 : (0 < s6)%R) by (apply IZR_lt; reflexivity). assert (S0 : (0 < IZR (2 ^ P))%R) by (apply IZR_lt; lia). set (s := IZR (2 ^ P)) in *. set (e := IZR (_ * W)) in *. set (x := row_sum rows i j k) in *.
  assert (F : (Rabs (x - n / D) * (D * s6 * s) <= tiny * (n / D) * (D * s6 * s))%R).
  - replace (Rabs (x - n / D) * (D * s6 * s))%R with (Rabs ((x - n / D) * (D * s6 * s)))%R by (rewrite Rabs_mult; f_equal; apply Rabs_pos_eq; assert (0 < D * s6)%R by nra; nra).
    replace ((x - n / D) * (D * s6 * s))%R with ((x * s6 * s - IZR T) * D + (IZR T * D - n * s6 * s))%R by (field; lra). replace (tiny * (n / D) * (D * s6 * s))%R with (tiny * (n * s6 * s))%R by (field; lra).
    eapply Rle_trans; [apply Rabs_triang|]. rewrite Rabs_mult, (Rabs_pos_eq D) by lra. pose proof tiny_inv as TI. assert (T0 : (0 < tiny)%R) by (unfold tiny; apply Rinv_0_lt_compat, pow_lt; lra).
    apply Rmult_le_compat_l with (r := tiny) in A; [|lra]. rewrite <- Rmult_assoc, TI, Rmult_1_l in A. eapply Rle_trans; [|exact A]. rewrite Rplus_comm. apply Rplus_le_compat_l. apply Rmult_le_compat_r; [lra|exact N].
  - apply Rmult_le_reg_r with (D * s6 * s)%R; auto. assert (0 < D * s6)%R by nra. nra. Qed.
Lemma accurate_table_ok P d rows : 0 <= P -> forallb room rows = true -> accurate_table P d rows = true -> forall i j k, (i + j + k <= d)%nat -> close rows tiny i j k.
Proof. intros HP R A i j k L. apply (close_below rows tiny d R) with (e := (d - i - j - k)%nat); [|lia]. apply close_sorted. clear i j k L. intros i j k E O. apply (accurate_close P d); auto.
  unfold accurate_table in A. rewrite forallb_forall in A. specialize (A k). rewrite forallb_forall in A by (apply in_seq; lia). specialize (A ltac:(apply in_seq; lia) j ltac:(apply in_seq; lia)). cbn beta in A. replace ((k <=? j)%nat && (j + j + k <=? d)%nat) with true in A by lia. now replace (d - j - k)%nat with i in A by lia. Qed.
