(** The statements about Lebedev rules. *)
From Coq Require Import Reals Lra Psatz.
From Verif Require Import Base Spec M_Layout M_Tensor M_Lebedev Spec_Lebedev P_Lebedev P_Lebedev2 P_Lebedev3 P_Lebedev4 P_Lebedev5.
Local Open Scope Z_scope.

(** C93 *)
Lemma degree_entry m n : degree_to_order m = Ok n -> In (m, n) degree_to_order_table.
Proof. unfold degree_to_order. destruct (find _ _) as [(a, b)|] eqn:F; [|discriminate]. apply find_entry in F as (F & E). cbn [fst snd] in *. destruct (b =? 0); [discriminate|]. intro Q. injection Q as <-. now rewrite <- E. Qed.
Lemma inverse_tables : forallb (fun e => match degree_to_order (snd e) with Ok n => n =? fst e | _ => false end) order_to_degree_table = true /\ forallb (fun e => match order_to_degree (snd e) with Ok m => m =? fst e | _ => false end) degree_to_order_table = true.
Proof. split; vm_compute; reflexivity. Qed.
Lemma l_leb_orders : forall n m, order_to_degree n = Ok m <-> degree_to_order m = Ok n.
Proof. intros n m. destruct inverse_tables as (A & B). rewrite forallb_forall in A, B. split; intro H.
  - apply order_entry, A in H. cbn [fst snd] in H. destruct (degree_to_order m); try discriminate. f_equal. lia.
  - apply degree_entry, B in H. cbn [fst snd] in H. destruct (order_to_degree n); try discriminate. f_equal. lia. Qed.
Lemma order_fails n : (forall m, order_to_degree n <> Ok m) -> order_to_degree n = Err InvalidValue.
Proof. unfold order_to_degree. intro H. destruct (_ =? 0); auto. now destruct (H _ eq_refl). Qed.
Lemma degree_fails n : (forall m, degree_to_order n <> Ok m) -> degree_to_order n = Err InvalidValue.
Proof. unfold degree_to_order. intro H. destruct (_ =? 0); auto. now destruct (H _ eq_refl). Qed.
Lemma order_documented n m : In (n, m) documented -> order_to_degree n = Ok (if n =? 131 then 5810 else m).
Proof. unfold documented. intro H. repeat match type of H with In _ (_ :: _) => destruct H as [H | H]; [injection H as <- <-; reflexivity|] | In _ [] => destruct H end. Qed.
Lemma documented_order n m : order_to_degree n = Ok m -> In n (map fst documented).
Proof. intro H. apply order_entry in H. apply (in_map fst) in H. exact H. Qed.
Lemma l_leb_succeeds : forall n, if existsb (fun e => fst e =? n) documented then exists g, gives n g else exact_rule n = Err InvalidValue.
Proof. intro n. destruct (existsb _ _) eqn:E.
  - apply existsb_exists in E as ((a, b) & I & E). cbn [fst] in E. apply Z.eqb_eq in E as ->. apply order_documented in I. destruct (rule_runs _ _ I) as (rows & q & w & _ & R & H & _). exists (grid rows), q, w. auto.
  - unfold exact_rule, lebedev_rule. rewrite order_fails; [reflexivity|]. intros m H. apply documented_order in H. apply in_map_iff in H as ((a, b) & <- & I). assert (existsb (fun e => fst e =? fst (a, b)) documented = true) by (apply existsb_exists; exists (a, b); split; auto; apply Z.eqb_refl). congruence. Qed.
Lemma gives_degree n g m : gives n g -> order_to_degree n = Ok m -> Z.of_nat (length g) = m.
Proof. intros G H. destruct (gives_rows n g G) as (m' & rows & H' & _ & _ & L). congruence. Qed.
Lemma l_leb_points_partial : forall n m g, In (n, m) documented -> n <> 131 -> gives n g -> Z.of_nat (length g) = m.
Proof. intros n m g I N G. apply (gives_degree n g m G). apply order_documented in I. now replace (n =? 131) with false in I by lia. Qed.
Lemma l_leb_points_refuted : In (131, 5802) documented /\ (exists g, gives 131 g /\ Z.of_nat (length g) = 5810) /\ exact_rule_from_degree 5802 = Err InvalidValue.
Proof. split; [repeat (first [left; reflexivity | right])|]. split; [|reflexivity]. assert (D : order_to_degree 131 = Ok 5810) by reflexivity. destruct (rule_runs _ _ D) as (rows & q & w & _ & R & H & L). exists (grid rows). split; auto. exists q, w. auto. Qed.
Lemma l_leb_from_degree : forall m, (forall n g, gives n g -> Z.of_nat (length g) = m -> exact_rule_from_degree m = exact_rule n) /\ ((forall n g, gives n g -> Z.of_nat (length g) <> m) -> exact_rule_from_degree m = Err InvalidValue).
Proof. intro m. split.
  - intros n g G L. destruct (gives_rows n g G) as (m' & rows & H & _ & _ & L'). rewrite L in L'. rewrite <- L' in H. unfold exact_rule_from_degree, lebedev_rule_from_degree. apply (proj1 (l_leb_orders n m)) in H. rewrite H. cbn [bind]. unfold exact_rule. reflexivity.
  - intro N. unfold exact_rule_from_degree, lebedev_rule_from_degree. rewrite degree_fails; [reflexivity|]. intros n H. apply (proj2 (l_leb_orders n m)) in H. destruct (rule_runs n m H) as (rows & q & w & _ & R & G & L). apply (N n (grid rows)); auto. exists q, w. auto. Qed.
(** C94 *)
Lemma l_leb_sphere : forall n g x y z v, gives n g -> In (x, y, z, v) g -> (x * x + y * y + z * z = 1)%R.
Proof. intros n g x y z v G I. destruct (gives_rows n g G) as (m & rows & H & E & -> & _). destruct (order_facts n m H) as (rows' & E' & _ & R & _). rewrite E in E'. injection E' as <-. pose proof (grid_forall on_sphere rows orbit_sphere R) as F. rewrite Forall_forall in F. exact (F _ I). Qed.
Lemma l_leb_symmetric : forall n g x y z v, gives n g -> In (x, y, z, v) g -> (In (- x, y, z, v)%R g /\ In (y, x, z, v) g /\ In (x, z, y, v) g).
Proof. intros n g x y z v G I. destruct (gives_rows n g G) as (m & rows & H & E & -> & _). destruct (order_facts n m H) as (rows' & E' & K & _). rewrite E in E'. injection E' as <-. apply in_flat_map in I as (r & I & J).
  rewrite Forall_forall in K. destruct (orbit_reflected r (K r I) x y z v J) as (A & B & C). split; [|split]; apply in_flat_map; eauto. Qed.
Definition weights_positive (e : Z * Z) : bool := (fst e =? 13) || (fst e =? 25) || (fst e =? 27) || match grid_table (snd e) with Ok rows => forallb (fun r => 0 <? snd (snd r)) rows | _ => false end.
Lemma tables_positive : forallb weights_positive order_to_degree_table = true.
Proof. vm_compute. reflexivity. Qed.
Lemma orbit_weight r x y z v : known r -> In (x, y, z, v) (orbit r) -> v = decimal22 (snd (snd r)).
Proof. intros K I. destruct r as (c, ((a, b), w)). unfold known in K. cbn [fst] in K. unfold orbit in I. destruct (points_known c (decimal22 a) (decimal22 b) (decimal22 w) K) as (xs & E & _ & W & _). rewrite E in I. apply (in_map snd) in I. fold (weights (triples xs (decimal22 w))) in I. rewrite W in I. apply repeat_spec in I. exact I. Qed.
Lemma decimal_pos v : 0 < v -> (0 < decimal22 v)%R.
Proof. intro H. unfold decimal22. rewrite scale_real. apply Rdiv_lt_0_compat; [now apply IZR_lt|apply scale_pos]. Qed.
Lemma l_leb_positive_partial : forall n g x y z v, gives n g -> ~ In n [13; 25; 27] -> In (x, y, z, v) g -> (0 < v)%R.
Proof. intros n g x y z v G N I. destruct (gives_rows n g G) as (m & rows & H & E & -> & _). destruct (order_facts n m H) as (rows' & E' & K & _). rewrite E in E'. injection E' as <-. apply in_flat_map in I as (r & I & J).
  rewrite Forall_forall in K. rewrite (orbit_weight r x y z v (K r I) J). apply decimal_pos. apply order_entry in H. pose proof tables_positive as P. rewrite forallb_forall in P. apply P in H. unfold weights_positive in H. cbn [fst snd] in H. rewrite E in H.
  assert (X : (n =? 13) = false /\ (n =? 25) = false /\ (n =? 27) = false) by (repeat split; apply Z.eqb_neq; intros ->; apply N; cbn; auto). destruct X as (X1 & X2 & X3). rewrite X1, X2, X3 in H. cbn [orb] in H. rewrite forallb_forall in H. specialize (H r I). lia. Qed.
Lemma in_orbit r rows x : In r rows -> In x (orbit r) -> In x (grid rows).
Proof. intros. apply in_flat_map. eauto. Qed.
Lemma first_of_orbit r : known r -> exists x y z, In (x, y, z, decimal22 (snd (snd r))) (orbit r).
Proof. intro K. destruct r as (c, ((a, b), w)). unfold known in K. cbn [fst snd] in *. unfold orbit. destruct (code_cases c K) as [-> | [-> | [-> | [-> | [-> | ->]]]]]; do 3 eexists; left; reflexivity. Qed.
Lemma l_leb_positive_refuted : forall n, In n [13; 25; 27] -> exists g x y z v, gives n g /\ In (x, y, z, v) g /\ (v < 0)%R.
Proof. intros n I. assert (X : exists m rows r, order_to_degree n = Ok m /\ grid_table m = Ok rows /\ In r rows /\ snd (snd r) < 0).
  { destruct I as [<-|[<-|[<-|[]]]]; [exists 74, table_74, (2, (0, 0, -295860389610389590000))|exists 230, table_230, (0, (0, 0, -552263991972732490000))|exists 266, table_266, (0, (0, 0, -13137691273269519000))]; (split; [reflexivity|]; split; [reflexivity|]; split; [|reflexivity]; repeat first [left; reflexivity|right]). }
  destruct X as (m & rows & r & H & E & J & V). destruct (order_facts n m H) as (rows' & E' & K & _). rewrite E in E'. injection E' as <-. rewrite Forall_forall in K. destruct (first_of_orbit r (K r J)) as (x & y & z & F).
  destruct (rule_runs n m H) as (rows' & q & w & E' & R & G & _). rewrite E in E'. injection E' as <-. exists (grid rows), x, y, z, (decimal22 (snd (snd r))). split; [exists q, w; auto|]. split; [apply in_flat_map; eauto|].
  unfold decimal22. rewrite scale_real. pose proof scale_pos. apply IZR_lt in V. apply Rmult_lt_reg_r with (IZR scale); auto. unfold Rdiv. rewrite Rmult_assoc, Rinv_l by lra. lra. Qed.
(** C95 *)
Lemma l_leb_odd : forall n g p q r, gives n g -> Nat.even p && Nat.even q && Nat.even r = false -> quadrature g (fun x y z => x ^ p * y ^ q * z ^ r)%R = 0%R.
Proof. intros n g p q r G O. destruct (gives_rows n g G) as (m & rows & H & E & -> & _). destruct (order_facts n m H) as (rows' & E' & K & _). rewrite E in E'. injection E' as <-. exact (grid_odd rows p q r K O). Qed.
Lemma even_half p : Nat.even p = true -> exists i, p = (2 * i)%nat.
Proof. intro H. apply Nat.even_spec in H. exact H. Qed.
Lemma from_close rows p q r : forallb room rows = true -> Forall known rows -> (forall i j k, p = (2 * i)%nat -> q = (2 * j)%nat -> r = (2 * k)%nat -> close rows tiny i j k) -> (Rabs (quadrature (grid rows) (fun x y z => x ^ p * y ^ q * z ^ r) - sphere_mean p q r) <= sphere_mean p q r / 10 ^ 14)%R.
Proof. intros RM K C. change (fun x y z : R => (x ^ p * y ^ q * z ^ r)%R) with (mono p q r). destruct (Nat.even p && Nat.even q && Nat.even r) eqn:O.
  - apply andb_prop in O as (O & O3). apply andb_prop in O as (O1 & O2). apply even_half in O1 as (i & ->). apply even_half in O2 as (j & ->). apply even_half in O3 as (k & ->). specialize (C i j k eq_refl eq_refl eq_refl). unfold close, tiny in C. rewrite grid_even, sphere_mean_even by auto. unfold Rdiv. rewrite (Rmult_comm (mean i j k)). exact C.
  - rewrite grid_odd by auto. unfold sphere_mean. rewrite O. rewrite Rminus_0_r, Rabs_R0. unfold Rdiv. rewrite Rmult_0_l. lra. Qed.
Lemma l_leb_accuracy_partial : forall n g p q r, gives n g -> n <= 47 -> Z.of_nat (p + q + r) <= n -> (Rabs (quadrature g (fun x y z => x ^ p * y ^ q * z ^ r) - sphere_mean p q r) <= sphere_mean p q r / 10 ^ 14)%R.
Proof. intros n g p q r G N L. destruct (gives_rows n g G) as (m & rows & H & E & -> & _). destruct (order_facts n m H) as (rows' & E' & K & R & _). rewrite E in E'. injection E' as <-. apply from_close; auto. intros i j k -> -> ->. apply (tables_accurate n m rows); auto. lia. Qed.
Lemma row_zero rows : row_sum rows 0 0 0 = (IZR (total_weight rows) / IZR scale)%R.
Proof. pose proof scale_pos. induction rows as [|r rows IH]; cbn [row_sum total_weight fold_right].
  - unfold Rdiv. now rewrite Rmult_0_l.
  - fold (total_weight rows). rewrite IH. assert (X : (let '(X, Y, Z) := squares r in weight r * (share r * sym6 X Y Z 0 0 0))%R = (weight r * share r * 6)%R) by (destruct (squares r) as ((X, Y), Z); unfold sym6; cbn [pow]; ring). rewrite X, weight_share. destruct r as (c, ((a, b), v)). cbn [fst snd]. rewrite plus_IZR, !mult_IZR. field. lra. Qed.
Lemma low_close rows i j k : forallb room rows = true -> 10 ^ 14 * Z.abs (total_weight rows - scale) <= scale -> (i + j + k <= 1)%nat -> close rows tiny i j k.
Proof. intros R W L. assert (C0 : close rows tiny 0 0 0).
  { unfold close. rewrite row_zero. replace (mean 0 0 0) with 1%R by (unfold mean; cbn; field). pose proof scale_pos. apply IZR_le in W. rewrite mult_IZR, abs_IZR, minus_IZR in W. pose proof tiny_inv as TI. assert (T0 : (0 < tiny)%R) by (unfold tiny; apply Rinv_0_lt_compat, pow_lt; lra).
    apply Rmult_le_reg_r with (IZR scale); auto. replace (Rabs (IZR (total_weight rows) / IZR scale - 1) * IZR scale)%R with (Rabs (IZR (total_weight rows) - IZR scale)).
    - apply Rmult_le_compat_l with (r := tiny) in W; [|lra]. rewrite <- Rmult_assoc, TI in W. lra.
    - rewrite <- (Rabs_pos_eq (IZR scale)) at 3 by lra. rewrite <- Rabs_mult. f_equal. field. lra. }
  assert (C1 : close rows tiny 1 0 0).
  { unfold close in *. pose proof (row_up rows 0 0 0 R) as U. rewrite (row_swap rows 0 1 0) in U. rewrite (row_swap' rows 0 0 1), (row_swap rows 0 1 0) in U. pose proof (mean_up 0 0 0) as V. rewrite (mean_swap 0 1 0) in V. rewrite (mean_swap' 0 0 1), (mean_swap 0 1 0) in V. rewrite U, V in C0. clear U V.
    set (x := row_sum rows 1 0 0) in *. set (y := mean 1 0 0) in *. unfold Rabs in *. repeat destruct (Rcase_abs _); lra. }
  destruct (Nat.eq_dec (i + j + k) 0) as [Z0|Z0].
  - replace i with 0%nat by lia. replace j with 0%nat by lia. replace k with 0%nat by lia. exact C0.
  - apply (close_sorted rows tiny 1); [|lia]. intros i' j' k' E O. replace i' with 1%nat by lia. replace j' with 0%nat by lia. replace k' with 0%nat by lia. exact C1. Qed.
Lemma l_leb_low : forall n g p q r, gives n g -> (p + q + r <= 3)%nat -> (Rabs (quadrature g (fun x y z => x ^ p * y ^ q * z ^ r) - sphere_mean p q r) <= sphere_mean p q r / 10 ^ 14)%R.
Proof. intros n g p q r G L. destruct (gives_rows n g G) as (m & rows & H & E & -> & _). destruct (order_facts n m H) as (rows' & E' & K & R & _ & _ & W). rewrite E in E'. injection E' as <-. apply from_close; auto. intros i j k -> -> ->. apply low_close; auto. lia. Qed.
Lemma gives_pos n g : gives n g -> 0 <= n.
Proof. intro G. destruct (gives_rows n g G) as (m & rows & H & _). apply order_entry in H. assert (P : forallb (fun e => 0 <=? fst e) order_to_degree_table = true) by reflexivity. rewrite forallb_forall in P. apply P in H. cbn [fst] in H. lia. Qed.
Lemma quadrature_value g f : quadrature g (value f) = fold_right (fun t s => let '(c, (p, q, r)) := t in c * quadrature g (mono p q r) + s)%R 0%R f.
Proof. induction f as [|(c, ((p, q), r)) f IH]; cbn [fold_right].
  - induction g as [|(((x, y), z), v) g IHg]; cbn [quadrature value] in *; [auto|]. rewrite IHg. ring.
  - rewrite <- IH. clear IH. induction g as [|(((x, y), z), v) g IHg]; cbn [quadrature value] in *; [ring|]. rewrite IHg. unfold mono. ring. Qed.
Lemma l_leb_polynomial_partial : forall n g f, gives n g -> n <= 47 -> degree_at_most (Z.to_nat n) f -> (Rabs (quadrature g (value f) - polynomial_mean f) <= polynomial_size f / 10 ^ 14)%R.
Proof. intros n g f G N D. rewrite quadrature_value. induction f as [|(c, ((p, q), r)) f IH]; cbn [fold_right polynomial_mean polynomial_size].
  - rewrite Rminus_0_r, Rabs_R0. unfold Rdiv. rewrite Rmult_0_l. lra.
  - assert (A : (Rabs (quadrature g (mono p q r) - sphere_mean p q r) <= sphere_mean p q r / 10 ^ 14)%R) by (apply (l_leb_accuracy_partial n); auto; specialize (D c p q r (or_introl eq_refl)); pose proof (gives_pos n g G); lia).
    specialize (IH (fun c' p' q' r' I => D c' p' q' r' (or_intror I))). set (S := fold_right _ _ f) in *. replace (c * quadrature g (mono p q r) + S - (c * sphere_mean p q r + polynomial_mean f))%R with (c * (quadrature g (mono p q r) - sphere_mean p q r) + (S - polynomial_mean f))%R by ring.
    eapply Rle_trans; [apply Rabs_triang|]. unfold Rdiv. rewrite Rmult_plus_distr_r. apply Rplus_le_compat; auto. rewrite Rabs_mult, Rmult_assoc. apply Rmult_le_compat_l; [apply Rabs_pos|]. exact A. Qed.
