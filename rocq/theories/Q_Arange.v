(** Statements about arange on integer types (C48). *)
From Verif Require Import Base Spec Spec_Arange P_Index P_List M_Arange P_Axes P_Arange P_Arange2.
Local Open Scope Z_scope.

Lemma count_spec d s : (0 < d /\ 0 < s) \/ (d < 0 /\ s < 0) -> exists n : nat, (0 < n)%nat /\ - ((- Z.abs d) / Z.abs s) = Z.of_nat n /\
  (forall i, (i < n)%nat -> Z.abs (Z.of_nat i * s) < Z.abs d) /\ Z.abs d <= Z.of_nat n * Z.abs s.
Proof. intro H. destruct (ceil_bounds (Z.abs d) (Z.abs s) ltac:(lia)) as (c & -> & A & B). assert (0 < c) by nia. exists (Z.to_nat c). repeat split; try lia. intros i Hi. rewrite Z.abs_mul. assert (Z.abs (Z.of_nat i) <= c - 1) by lia. assert (0 < Z.abs s) by lia. nia. Qed.
Lemma in_type_ok t z : fits t z = true -> in_type t z = Ok z.
Proof. unfold in_type. now intros ->. Qed.
Lemma map_res_pure {A B} (f : A -> res B) (g : A -> B) l : (forall x, In x l -> f x = Ok (g x)) -> map_res f l = Ok (map g l).
Proof. induction l as [|x l IH]; intro H; cbn; auto. rewrite (H x) by (now left). cbn. rewrite IH; auto. intros. apply H. now right. Qed.
Lemma last_of_map (g : nat -> Z) n : rev (map g (seq 0 (S n))) = g n :: rev (map g (seq 0 n)).
Proof. rewrite seq_S, map_app, rev_app_distr. reflexivity. Qed.

Lemma l_arange_fast : forall t start stop step, i_fast t = true -> fits t start = true -> fits t stop = true ->
  fits isize_ start = true -> fits isize_ stop = true -> fits isize_ step = true -> step <> 0 -> Z.abs (stop - start) <= 2 ^ 53 ->
  exists r, arange_f t start stop step = Ok r /\ evenly_spaced start stop step r.
Proof. intros t start stop step Hf F1 F2 G1 G2 G3 Hs Hd. unfold arange_f. replace (step =? 0) with false by lia. cbn [negb check bind]. rewrite Hf. unfold arange_isize. rewrite G1, G2, G3. cbn [andb negb].
  assert (P : forall z, Z.abs z <= 2 ^ 53 -> fits isize_ z = true) by (intros z Hz; unfold fits, isize_; cbn [i_min i_max]; lia).
  rewrite (in_type_ok isize_ (stop - start)) by auto. cbn [bind]. cbv zeta. pose proof (count_exact (stop - start) step Hd Hs) as C. cbv zeta in C. revert C. generalize (f64_ceil (f64_div (f64_of_Z (stop - start)) (f64_of_Z step))). intros n C.
  destruct ((0 <? stop - start) && (0 <? step) || (stop - start <? 0) && (step <? 0)) eqn:E.
  - destruct (count_spec (stop - start) step ltac:(lia)) as (k & K0 & Ek & Kin & Kout). rewrite Ek in C. subst n.
    assert (Kb : Z.of_nat k <= 2 ^ 53). { destruct k as [|k]; [lia|]. specialize (Kin k ltac:(lia)). rewrite Z.abs_mul in Kin. nia. }
    rewrite (P (Z.of_nat k)) by lia. cbn [negb]. rewrite Nat2Z.id.
    rewrite (map_res_pure _ (fun i => start + Z.of_nat i * step)).
    2:{ intros i Hi. apply in_seq in Hi. specialize (Kin i ltac:(lia)). rewrite (in_type_ok isize_ (Z.of_nat i * step)) by (apply P; lia). cbn [bind]. rewrite in_type_ok. cbn [bind]. apply in_type_ok. all: unfold fits in *; nia. }
    cbn [bind]. destruct k as [|k]; [lia|]. rewrite last_of_map. cbv iota.
    assert (Hlast : (0 <? step) && (stop <=? start + Z.of_nat k * step) || (step <? 0) && (start + Z.of_nat k * step <=? stop) = false). { specialize (Kin k ltac:(lia)). nia. }
    rewrite Hlast. eexists. split; [reflexivity|]. apply spaced_map; unfold before.
    + intros i Hi. specialize (Kin i Hi). nia.
    + nia.
  - rewrite (P n) by lia. cbn [negb]. replace (Z.to_nat n) with 0%nat by lia. cbn. exists []. split; auto. apply spaced_nil. unfold before. lia. Qed.

Lemma l_arange_32 : forall t start stop step, t = i32_ \/ t = u32_ -> fits t start = true -> fits t stop = true -> fits t step = true -> step <> 0 ->
  exists r, arange_f t start stop step = Ok r /\ evenly_spaced start stop step r.
Proof. intros t start stop step H F1 F2 F3 Hs. assert (W : forall z, fits t z = true -> - 2 ^ 31 <= z < 2 ^ 32) by (intros z; destruct H as [-> | ->]; unfold fits, i32_, u32_; cbn [i_min i_max]; lia).
  assert (W' : forall z, fits t z = true -> fits isize_ z = true) by (intros z Hz; apply W in Hz; unfold fits, isize_; cbn [i_min i_max]; lia). pose proof (W _ F1). pose proof (W _ F2). apply l_arange_fast; auto; [destruct H as [-> | ->]; reflexivity|]. lia. Qed.
Lemma l_spaced_exists : forall start stop step, step <> 0 -> exists r, evenly_spaced start stop step r /\ forall r', evenly_spaced start stop step r' -> r' = r.
Proof. intros start stop step Hs. assert (E : exists r, evenly_spaced start stop step r).
  { destruct ((0 <? stop - start) && (0 <? step) || (stop - start <? 0) && (step <? 0)) eqn:E; [|exists []; apply spaced_nil; unfold before; lia].
    destruct (count_spec (stop - start) step ltac:(lia)) as (k & K0 & _ & Kin & Kout). eexists. apply (spaced_map _ _ _ k); unfold before; [|nia]. intros i Hi. specialize (Kin i Hi). nia. }
  destruct E as [r R]. exists r. split; auto. intros r' R'. eapply spaced_unique; eauto. Qed.
Lemma l_arange_zero : forall t start stop, arange_f t start stop 0 = Err InvalidValue.
Proof. reflexivity. Qed.

(** the fallback *)
Lemma fallback_eq t start stop step : fallback t start stop step -> step <> 0 -> arange_f t start stop step = arange_partial_ord t start stop step.
Proof. intros H Hs. unfold arange_f. replace (step =? 0) with false by lia. cbn [negb check bind]. destruct H as [-> |H]; auto. destruct (i_fast t); auto. unfold arange_isize. rewrite H. reflexivity. Qed.
Lemma count_up_overflow t stop step n : 0 < step -> forall fuel start, (forall i, (i < n)%nat -> start + Z.of_nat i * step < stop) -> i_max t < start + Z.of_nat n * step -> (0 < n)%nat -> count_up fuel t start stop step = Panic.
Proof. intro Hs. induction n as [|n IH]; intros fuel start H1 H2 Hn; [lia|]. destruct fuel as [|fuel]; auto. cbn [count_up]. replace (start <? stop) with true by (specialize (H1 0%nat); lia). unfold in_type. destruct (fits t (start + step)) eqn:F; auto. cbn [bind]. rewrite IH; auto.
  - intros i Hi. specialize (H1 (S i)). lia.
  - lia.
  - destruct n; [|lia]. unfold fits in F. lia. Qed.
Lemma count_up_down t stop step : step < 0 -> forall fuel start, start < stop -> count_up fuel t start stop step = Panic.
Proof. intro Hs. induction fuel as [|fuel IH]; intros start H; auto. cbn [count_up]. replace (start <? stop) with true by lia. destruct (in_type t (start + step)) as [v| |] eqn:E; auto; cbn [bind]; [|unfold in_type in E; now destruct (fits _ _)]. unfold in_type in E. destruct (fits _ _); inversion E. subst v. rewrite IH by lia. reflexivity. Qed.

Lemma l_arange_fallback : forall t start stop step r, fallback t start stop step -> fits t start = true -> 0 < step -> evenly_spaced start stop step r ->
  arange_f t start stop step = if start + Z.of_nat (length r) * step <=? i_max t then Ok r else Panic.
Proof. intros t start stop step r Hf F Hs R. rewrite fallback_eq by (auto; lia). unfold arange_partial_ord. replace (0 <? step) with true by lia. destruct R as [R1 R2]. set (n := length r) in *.
  assert (A : forall i, (i < n)%nat -> start + Z.of_nat i * step < stop) by (intros i Hi; destruct (R1 i Hi) as [E B]; rewrite E in B; unfold before in B; lia).
  assert (B : stop <= start + Z.of_nat n * step) by (unfold before in R2; lia).
  destruct (Z.leb_spec (start + Z.of_nat n * step) (i_max t)) as [L|L].
  - rewrite (count_up_ok t stop step n); auto.
    + f_equal. apply (nth_ext _ _ 0 0); [now rewrite map_length, seq_length|]. intros i. rewrite map_length, seq_length. intro Hi. destruct (R1 i Hi) as [-> _]. rewrite (nth_indep _ 0 (start + Z.of_nat 0 * step)) by (now rewrite map_length, seq_length). rewrite (map_nth (fun i => start + Z.of_nat i * step)), seq_nth by auto. reflexivity.
    + unfold fits in *. nia.
    + destruct n as [|n']; [lia|]. specialize (A n' ltac:(lia)). assert (Z.of_nat n' <= (stop - start) / Z.abs step). { apply Z.div_le_lower_bound; lia. } lia.
  - apply (count_up_overflow t stop step n); auto. destruct n; [|lia]. unfold fits in F. lia. Qed.
Lemma l_arange_fallback_down : forall t start stop step, fallback t start stop step -> step < 0 ->
  arange_f t start stop step = if start <? stop then Panic else Ok [].
Proof. intros t start stop step Hf Hs. rewrite fallback_eq by (auto; lia). unfold arange_partial_ord. destruct (Z.ltb_spec start stop) as [L|L]; [now apply count_up_down|]. cbn [count_up]. now replace (start <? stop) with false by lia. Qed.
Lemma l_arange_down_refuted : forall t start stop step, fallback t start stop step -> step < 0 -> start <> stop ->
  ~ exists r, arange_f t start stop step = Ok r /\ evenly_spaced start stop step r.
Proof. intros t start stop step Hf Hs Hn (r & E & R). rewrite l_arange_fallback_down in E by auto. destruct (Z.ltb_spec start stop) as [L|L]; [discriminate|]. injection E as <-. destruct R as [_ R]. apply R. right. cbn [length]. lia. Qed.

(** whatever the rounding does, a returned list holds the right values in the right order *)
Lemma count_up_values t stop step : forall fuel start r, count_up fuel t start stop step = Ok r -> forall i, (i < length r)%nat -> nth i r 0 = start + Z.of_nat i * step.
Proof. induction fuel as [|fuel IH]; intros start r H i Hi; [discriminate|]. cbn [count_up] in H. destruct (start <? stop); [|injection H as <-; destruct (Nat.nlt_0_r i Hi)]. unfold in_type in H. destruct (fits _ _); [|discriminate]. cbn [bind] in H. destruct (count_up fuel t (start + step) stop step) as [r'| |] eqn:E; try discriminate. injection H as <-. destruct i as [|i]; [cbn; lia|]. cbn [nth length] in *. rewrite (IH _ _ E) by lia. lia. Qed.
Lemma nth_removelast (l : list Z) i : (i < length (removelast l))%nat -> nth i (removelast l) 0 = nth i l 0.
Proof. revert i. induction l as [|x [|y l] IH]; intros i Hi; auto. - destruct (Nat.nlt_0_r i Hi). - destruct i as [|i]; auto. change (removelast (x :: y :: l)) with (x :: removelast (y :: l)) in *. cbn [nth length] in *. rewrite IH by lia. reflexivity. Qed.
Lemma l_arange_values : forall t start stop step r, arange_f t start stop step = Ok r -> forall i, (i < length r)%nat -> nth i r 0 = start + Z.of_nat i * step.
Proof. intros t start stop step r H. unfold arange_f in H. destruct (step =? 0); [discriminate|]. cbn [negb check bind] in H. destruct (i_fast t); [|unfold arange_partial_ord in H; eapply count_up_values; eauto].
  destruct (arange_isize t start stop step) as [[v|]| |] eqn:E; try discriminate; [|unfold arange_partial_ord in H; eapply count_up_values; eauto]. injection H as <-. unfold arange_isize in E. destruct (negb _) in E; [discriminate|]. unfold in_type at 1 in E. destruct (fits _ (stop - start)); [|discriminate]. cbn [bind] in E. cbv zeta in E. destruct (negb _) in E; [discriminate|].
  match type of E with bind ?m _ = _ => destruct m as [w| |] eqn:M; try discriminate end. cbn [bind] in E. injection E as E.
  assert (W : forall i, (i < length w)%nat -> nth i w 0 = start + Z.of_nat i * step). { apply map_res_ok in M. clear E. intros i Hi. pose proof (Forall2_length _ _ _ M) as L. rewrite seq_length in L. pose proof (Forall2_nth _ _ _ 0%nat 0 M i) as N. clear M. rewrite seq_length, seq_nth in N by lia. specialize (N ltac:(lia)). cbn [Nat.add] in N. unfold in_type in N. destruct (fits isize_ (Z.of_nat i * step)); [|discriminate]. cbn [bind] in N. destruct (fits isize_ (start + Z.of_nat i * step)); [|discriminate]. cbn [bind] in N. destruct (fits t _); [|discriminate]. now injection N. }
  intros i Hi. subst v. match type of Hi with context[if ?b then _ else _] => destruct b end; auto. rewrite nth_removelast by auto. apply W. rewrite removelast_length in Hi. lia. Qed.

Lemma l_arange_float_refuted : exists t start stop step r, fits t start = true /\ fits t stop = true /\ fits t step = true /\ step <> 0 /\ arange_f t start stop step = Ok r /\ ~ evenly_spaced start stop step r.
Proof. exists i64_, 0, (2 ^ 60 + 1), (2 ^ 60), [0]. split; [reflexivity|]. split; [reflexivity|]. split; [reflexivity|]. split; [lia|]. split; [vm_compute; reflexivity|]. intros [_ H]. apply H. left. split; [lia|]. vm_compute. reflexivity. Qed.
Lemma l_arange_overflow_refuted : exists t start stop step, fits t start = true /\ fits t stop = true /\ fits t step = true /\ step <> 0 /\ arange_f t start stop step = Panic.
Proof. exists u8_, 0, 250, 100. split; [reflexivity|]. split; [reflexivity|]. split; [reflexivity|]. split; [lia|]. vm_compute. reflexivity. Qed.
Lemma l_arange_isize_overflow_refuted : arange_f i64_ (- 2 ^ 63) (2 ^ 63 - 1) (2 ^ 62) = Panic /\ evenly_spaced (- 2 ^ 63) (2 ^ 63 - 1) (2 ^ 62) [- 2 ^ 63; - 2 ^ 62; 0; 2 ^ 62].
Proof. split; [vm_compute; reflexivity|]. split; [|unfold before; cbn [length]; lia]. intros i Hi. cbn [length] in Hi. unfold before. destruct i as [|[|[|[|i]]]]; cbn [nth]; lia. Qed.
