(** Closed statements about distances of floating-point numbers *)
From Coq Require Import ZArith Reals List Lia Lra Bool.
From Flocq Require Import Core Relative BinarySingleNaN Plus_error.
From Verif Require Import Base Spec Spec_Blas Spec_Dist M_Layout M_Tensor P_Tensor Q_Tensor M_Dist Q_Dist Spec_Float Spec_FloatReduce Spec_FloatMatmul Spec_FloatDist P_ArangeFloat M_Float P_FloatOps M_FloatReduce M_FloatClose P_FloatSum P_FloatLinspace P_FloatDot P_FloatProd P_FloatClose Q_FloatClose M_FloatDist P_FloatDist.
Import ListNotations.
Local Open Scope R_scope.

(** ** zero distances *)
Lemma fadd_parts t (x y : float t) : finite (fadd x y) -> finite x /\ finite y /\ val (fadd x y) = rnd t (val x + val y).
Proof. intro F. assert (Fx : finite x /\ finite y). { split; destruct x as [s|s| |s m e H], y as [s'|s'| |s' m' e' H']; try reflexivity; try discriminate F; revert F; unfold fadd; cbn; try destruct s; try destruct s'; cbn; discriminate. }
  destruct Fx as [Fx Fy]. split; [exact Fx|]. split; [exact Fy|]. destruct (Rlt_le_dec (Rabs (rnd t (val x + val y))) (two (emax t))) as [L|L]; [now apply fadd_val|].
  exfalso. pose proof (@Bplus_correct _ _ (prec_ok t) (emax_ok t) mode_NE x y Fx Fy) as H. cbv zeta in H. rewrite Rlt_bool_false in H by exact L. destruct H as [H _]. unfold finite, fadd in F. destruct (Bplus mode_NE x y) as [s|s| |s m e He]; cbn in H; try discriminate H; try discriminate F; destruct (Bsign x); discriminate H. Qed.
Lemma fold_ge t (ts : list (float t)) : (forall x, In x ts -> nonneg x) -> forall s, nonneg s -> finite (fold_left fadd ts s) -> finite s /\ val s <= val (fold_left fadd ts s) /\ Forall (fun x => val x <= val (fold_left fadd ts s)) ts.
Proof. induction ts as [|x ts IH]; intros H s Hs F; cbn in *; [split; [exact F|]; split; [lra|constructor]|]. destruct (IH (fun y Hy => H y (or_intror Hy)) (fadd s x)) as (A & B & C); auto. { apply nonneg_add; auto. }
  destruct (fadd_parts t s x A) as (Fs & Fx & V). specialize (Hs Fs). pose proof (H x (or_introl eq_refl) Fx) as Hx. set (d := fold_left fadd ts (fadd s x)) in *.
  assert (G1 : val s <= val (fadd s x)). { rewrite V. rewrite <- (rnd_id t (val s)) at 1 by apply val_format. apply rnd_le. lra. } assert (G2 : val x <= val (fadd s x)). { rewrite V. rewrite <- (rnd_id t (val x)) at 1 by apply val_format. apply rnd_le. lra. }
  split; [exact Fs|]. split; [lra|]. constructor; [lra|exact C]. Qed.
Lemma city_nonneg t (p : float t * float t) : nonneg (city_term p). Proof. intros _. unfold city_term. rewrite fabs_val. apply Rabs_pos. Qed.
Lemma sub_zero t (x y : float t) : finite x -> finite y -> finite (fsub x y) -> (val (fsub x y) = 0 <-> val x = val y).
Proof. intros Fx Fy F. destruct (fsub_cases t x y Fx Fy) as [[_ V]|[E _]]; [|exfalso; destruct (fsub x y); discriminate]. rewrite V. split; intro H.
  - destruct (Req_dec (val x - val y) 0) as [Z|Z]; [lra|]. exfalso. revert H. unfold Rminus in *. apply (round_plus_neq_0 radix2 (fexpt t) (Znearest (fun x => negb (Z.even x)))); auto. + apply val_format. + rewrite <- fopp_val. apply val_format.
  - rewrite H, Rminus_diag_eq by reflexivity. apply round_0. auto with typeclass_instances. Qed.
Lemma term_zero t (p : float t * float t) : finite (fst p) -> finite (snd p) -> finite (city_term p) -> (val (city_term p) = 0 <-> val (fst p) = val (snd p)).
Proof. intros F1 F2 F. unfold city_term in *. rewrite fabs_val. rewrite <- (sub_zero t (fst p) (snd p)); auto; [|now apply fabs_finite]. split; intro H; [|rewrite H; apply Rabs_R0]. destruct (Req_dec (val (fsub (fst p) (snd p))) 0); auto. now apply Rabs_no_R0 in H. Qed.
Lemma fold_parts t (ts : list (float t)) : forall s, finite (fold_left fadd ts s) -> finite s /\ Forall finite ts.
Proof. induction ts as [|x ts IH]; intros s F; cbn in *; auto. destruct (IH _ F) as [A B]. destruct (fadd_parts t s x A) as (A1 & A2 & _). auto. Qed.
Lemma fold_zeros t (ts : list (float t)) : Forall (fun x => finite x /\ val x = 0) ts -> forall s, finite s -> val s = 0 -> finite (fold_left fadd ts s) /\ val (fold_left fadd ts s) = 0.
Proof. induction 1 as [|x ts [Fx Vx] _ IH]; intros s F V; cbn; auto. destruct (zero_add t s x F Fx V) as [V' F']. apply IH; auto. now rewrite V'. Qed.
Lemma city_zero t (ps : list (float t * float t)) : finite_pairs ps -> let d := fold_left fadd (map city_term ps) fzero in finite d -> (val d = 0 <-> same_values ps).
Proof. intros F d Fd. unfold finite_pairs in F. rewrite Forall_forall in F. destruct (fold_parts t _ _ Fd) as [_ Ft]. rewrite Forall_forall in Ft. unfold same_values. rewrite Forall_forall. split; intro H.
  - intros p Hp. destruct (F p Hp). assert (I : In (city_term p) (map city_term ps)) by now apply in_map. apply term_zero; auto. destruct (fold_ge t (map city_term ps)) with (s := fzero : float t) as (_ & _ & G); auto. { intros x Hx. apply in_map_iff in Hx as (q & <- & _). apply city_nonneg. } { intros _. unfold val. cbn. lra. }
    rewrite Forall_forall in G. specialize (G _ I). fold d in G. rewrite H in G. pose proof (city_nonneg t p (Ft _ I)). lra.
  - apply fold_zeros; [|reflexivity|reflexivity]. apply Forall_forall. intros x Hx. split; [auto|]. apply in_map_iff in Hx as (p & <- & Hp). destruct (F p Hp). apply term_zero; auto. apply Ft. now apply in_map. Qed.
Lemma same_terms t (ps : list (float t * float t)) : finite_pairs ps -> same_values ps -> Forall (fun p => finite (fsub (fst p) (snd p)) /\ val (fsub (fst p) (snd p)) = 0) ps.
Proof. intros F S. unfold finite_pairs, same_values in *. rewrite Forall_forall in *. intros p Hp. destruct (F p Hp) as [F1 F2]. specialize (S p Hp). destruct (fsub_val t (fst p) (snd p) F1 F2) as [V W]; rewrite S, Rminus_diag_eq, round_0 in * by (reflexivity || auto with typeclass_instances); auto. rewrite Rabs_R0. apply bpow_gt_0. Qed.
(** ** the sums *)
Lemma map_fst_combine {A B} (l : list A) : forall (ws : list B), length l = length ws -> map fst (combine l ws) = l.
Proof. induction l as [|x l IH]; intros [|w ws] H; cbn in *; auto; [discriminate|]. f_equal. auto. Qed.
Lemma row_length {T} k (A : nat -> nat -> T) i : length (row k A i) = k. Proof. unfold row. now rewrite map_length, seq_length. Qed.
Lemma row_pairs_length {T} k (A B : nat -> nat -> T) i j : length (row_pairs k A B i j) = k. Proof. unfold row_pairs. rewrite combine_length, !row_length. lia. Qed.
Lemma triples_map {T R X} (f : T * T -> X) k (A B : nat -> nat -> T) i j (one : R) : map (fun x => f (fst x)) (triples (row k A i) (row k B j) (repeat one k)) = map f (row_pairs k A B i j).
Proof. rewrite <- (map_map fst f). f_equal. unfold triples. apply map_fst_combine. rewrite repeat_length. apply row_pairs_length. Qed.
Lemma given_none {T W} (one : W) (a b : tensor T) m n k A B : given one a b None m n k A B (repeat one k) -> k <> 0%nat. Proof. intros (_ & _ & _ & _ & H & _). exact H. Qed.
Lemma pairs_nonempty {T} k (A B : nat -> nat -> T) i j : k <> 0%nat -> row_pairs k A B i j <> []. Proof. intros H E. apply H. rewrite <- (row_pairs_length k A B i j), E. reflexivity. Qed.
Lemma size_ok t : (match t with F32 => 4 | F64 => 8 end)%nat <> 0%nat. Proof. destruct t; discriminate. Qed.
Section Tables.
  Context {t : float_type} (sigma : list (nat * nat) -> list (nat * nat)) (dev : order) (a b : tensor (float t)) (m n k : nat) (A B : nat -> nat -> float t).
  Context (G : given (of_int 1 : float t) a b None m n k A B (repeat (of_int 1) k)) (Sg : schedule sigma).
  Lemma sums_table : gives (fcdist feuclidean sigma dev a b) dev m n (fun i j => fsqrt (fold_left fadd (map sq_term (row_pairs k A B i j)) fzero)) /\
    gives (fcdist fsq_euclidean sigma dev a b) dev m n (fun i j => fold_left fadd (map sq_term (row_pairs k A B i j)) fzero) /\
    gives (fcdist fcity_block sigma dev a b) dev m n (fun i j => fold_left fadd (map city_term (row_pairs k A B i j)) fzero).
  Proof using G Sg. destruct (l_cdist_sums (float t) (float t) fzero (of_int 1) fadd fmul fdiv fsub fabs fsquare fsqrt (fun x _ => x) fzero (fun n => of_int (Z.of_nat n)) sigma _ dev a b None m n k A B _ G (size_ok t) Sg) as (H1 & H2 & H3 & _). cbv zeta in *.
    split; [eapply gives_ext; [exact H1|]|split; [eapply gives_ext; [exact H2|]|eapply gives_ext; [exact H3|]]]; intros i j _ _; cbn [weighted]; unfold sum_over_pairs, sum_list; [apply (f_equal fsqrt)| |]; apply (f_equal (fun l => fold_left fadd l fzero)); [apply (triples_map (fun p => sq_term p))|apply (triples_map (fun p => sq_term p))|apply (triples_map (fun p => city_term p))]. Qed.
  Lemma cheb_table : gives (fcdist fchebyshev sigma dev a b) dev m n (fun i j => fold_left fmax (map city_term (row_pairs k A B i j)) fzero).
  Proof using G Sg. destruct (l_cdist_ratios (float t) (float t) fzero (of_int 1) fadd fmul fdiv fmax (fun w => feq w fzero) fsub fadd fabs feq (fun n => of_int (Z.of_nat n)) sigma _ dev a b None m n k A B _ G (size_ok t) Sg) as (_ & H & _). cbv zeta in *.
    eapply gives_ext; [eassumption|]. intros i j _ _. cbn [weighted andb negb]. unfold greatest. apply (f_equal (fun l => fold_left fmax l fzero)). refine (eq_trans _ (triples_map (fun p => city_term p) k A B i j (of_int 1 : float t))). generalize (triples (row k A i) (row k B j) (repeat (of_int 1 : float t) k)) as l. induction l as [|x l IH]; [reflexivity|]. cbn [filter map]. exact (f_equal (cons _) IH). Qed.
End Tables.
Lemma l_fcity : forall t sigma dev (a b : tensor (float t)) m n k A B, given (of_int 1 : float t) a b None m n k A B (repeat (of_int 1) k) -> schedule sigma ->
  exists D, gives (fcdist fcity_block sigma dev a b) dev m n D /\
    forall i j, (i < m)%nat -> (j < n)%nat -> let ps := row_pairs k A B i j in finite_pairs ps -> city_no_overflow ps -> city_to ps (D i j) /\ (val (D i j) = 0 <-> same_values ps).
Proof. intros t sigma dev a b m n k A B G Sg. eexists. split; [apply (sums_table sigma dev a b m n k A B G Sg)|]. intros i j _ _ ps F NO. cbv beta. fold ps. assert (C : city_to ps (fold_left fadd (map city_term ps) fzero)) by (apply city_rounds; auto; apply pairs_nonempty; eapply given_none; exact G). split; [exact C|]. apply city_zero; auto. apply C. Qed.
Lemma l_feuclid : forall t sigma dev (a b : tensor (float t)) m n k A B, given (of_int 1 : float t) a b None m n k A B (repeat (of_int 1) k) -> schedule sigma ->
  exists D E, gives (fcdist fsq_euclidean sigma dev a b) dev m n D /\ gives (fcdist feuclidean sigma dev a b) dev m n E /\
    forall i j, (i < m)%nat -> (j < n)%nat -> let ps := row_pairs k A B i j in finite_pairs ps -> sq_no_overflow ps -> sq_to ps (D i j) /\ euclid_to ps (E i j).
Proof. intros t sigma dev a b m n k A B G Sg. destruct (sums_table sigma dev a b m n k A B G Sg) as (T1 & T2 & _). eexists. eexists. split; [exact T2|]. split; [exact T1|]. intros i j _ _ ps F NO. cbv beta. fold ps. assert (N : ps <> []) by (apply pairs_nonempty; eapply given_none; exact G). split; [now apply sq_rounds|now apply euclid_rounds]. Qed.
Lemma l_fchebyshev : forall t sigma dev (a b : tensor (float t)) m n k A B, given (of_int 1 : float t) a b None m n k A B (repeat (of_int 1) k) -> schedule sigma ->
  exists D, gives (fcdist fchebyshev sigma dev a b) dev m n D /\
    forall i j, (i < m)%nat -> (j < n)%nat -> let ps := row_pairs k A B i j in finite_pairs ps -> chebyshev_no_overflow ps -> chebyshev_to ps (D i j) /\ (val (D i j) = 0 <-> same_values ps).
Proof. intros t sigma dev a b m n k A B G Sg. eexists. split; [apply (cheb_table sigma dev a b m n k A B G Sg)|]. intros i j _ _ ps F NO. cbv beta. fold ps. assert (C : chebyshev_to ps (fold_left fmax (map city_term ps) fzero)) by now apply cheb_rounds. split; [exact C|]. destruct C as [_ C]. set (d := fold_left fmax (map city_term ps) fzero) in *.
  assert (U : unit_roundoff t <= / 2) by (change (/ 2) with (two (-1)); apply bpow_le; destruct t; cbn; discriminate). pose proof (cheb_pos ps) as C0. assert (Z : exact_chebyshev ps = 0 <-> same_values ps).
  { clear. unfold exact_chebyshev, same_values. induction ps as [|p ps IH]; cbn [map fold_right]; [split; auto|]. pose proof (cheb_pos ps) as C0. pose proof (gap_pos p) as G0. unfold exact_chebyshev in C0. split; intro H.
    - pose proof (Rmax_l (gap p) (fold_right Rmax 0 (map gap ps))). pose proof (Rmax_r (gap p) (fold_right Rmax 0 (map gap ps))). constructor; [|apply IH; lra]. assert (Z : gap p = 0) by lra. unfold gap in Z. destruct (Req_dec (val (fst p) - val (snd p)) 0); [lra|]. now apply Rabs_no_R0 in Z.
    - inversion H as [|q qs H1 H2]; subst. apply IH in H2. rewrite H2. unfold gap. rewrite H1, Rminus_diag_eq, Rabs_R0 by reflexivity. now apply Rmax_left; lra. }
  rewrite <- Z. split; intro H.
  - rewrite H, Rminus_0_l, Rabs_Ropp, Rabs_pos_eq in C by exact C0. assert (unit_roundoff t * exact_chebyshev ps <= / 2 * exact_chebyshev ps) by (apply Rmult_le_compat_r; lra). lra.
  - rewrite H, Rmult_0_r, Rminus_0_r in C. now apply abs_0. Qed.
(** ** rows with equal values *)
Lemma l_fdist_same : forall t sigma dev (a b : tensor (float t)) m n k A B M, given (of_int 1 : float t) a b None m n k A B (repeat (of_int 1) k) -> schedule sigma -> In M [feuclidean; fsq_euclidean; fcity_block; fchebyshev] ->
  exists D, gives (fcdist M sigma dev a b) dev m n D /\
    forall i j, (i < m)%nat -> (j < n)%nat -> let ps := row_pairs k A B i j in finite_pairs ps -> same_values ps -> finite (D i j) /\ val (D i j) = 0.
Proof. intros t sigma dev a b m n k A B M G Sg HM. destruct (sums_table sigma dev a b m n k A B G Sg) as (T1 & T2 & T3). pose proof (cheb_table sigma dev a b m n k A B G Sg) as T4.
  assert (CT : forall ps : list (float t * float t), finite_pairs ps -> same_values ps -> Forall (fun x => finite x /\ val x = 0) (map city_term ps)). { intros ps F S. pose proof (same_terms t ps F S) as H. rewrite Forall_forall in *. intros x Hx. apply in_map_iff in Hx as (p & <- & Hp). destruct (H p Hp) as [H1 H2]. unfold city_term. rewrite fabs_val, H2, Rabs_R0. split; auto. now apply fabs_finite. }
  assert (ST : forall ps : list (float t * float t), finite_pairs ps -> same_values ps -> Forall (fun x => finite x /\ val x = 0) (map sq_term ps)). { intros ps F S. pose proof (same_terms t ps F S) as H. rewrite Forall_forall in *. intros x Hx. apply in_map_iff in Hx as (p & <- & Hp). destruct (H p Hp) as [H1 H2]. unfold sq_term, fsquare. destruct (fmul_val t _ _ H1 H1) as [V W]; rewrite H2, Rmult_0_l, round_0 in * by auto with typeclass_instances; auto. rewrite Rabs_R0. apply bpow_gt_0. }
  assert (Z0 : val (fzero : float t) = 0) by reflexivity.
  destruct HM as [<- |[<- |[<- |[<- |[]]]]]; eexists; [split; [exact T1|]|split; [exact T2|]|split; [exact T3|]|split; [exact T4|]]; intros i j _ _ ps F S; cbv beta; fold ps.
  - destruct (fold_zeros t _ (ST ps F S) fzero eq_refl Z0) as [F1 V1]. destruct (fsqrt_val t _ F1) as [V2 F2]; [rewrite V1; lra|]. split; [exact F2|]. rewrite V2, V1, sqrt_0. apply round_0. auto with typeclass_instances.
  - apply fold_zeros; auto. reflexivity.
  - apply fold_zeros; auto. reflexivity.
  - specialize (CT ps F S). revert CT. generalize (map city_term ps). intros ts CT. assert (K : forall x : float t, finite x -> val x = 0 -> finite (fold_left fmax ts x) /\ val (fold_left fmax ts x) = 0); [|apply K; auto; reflexivity].
    induction CT as [|y ts [Fy Vy] _ IH]; intros x Fx Vx; cbn; auto. destruct (fmax_val t x y Fx Fy) as [F' V']. apply IH; auto. rewrite V', Vx, Vy. apply Rmax_left. lra. Qed.
(** ** rows exchanged *)
Lemma fabs_flip t (x y : float t) : fabs (fsub x y) = fabs (fsub y x).
Proof. destruct (is_finite x) eqn:Fx; [destruct (is_finite y) eqn:Fy|].
  - assert (RN : Rabs (rnd t (val y - val x)) = Rabs (rnd t (val x - val y))). { replace (val y - val x) with (- (val x - val y)) by ring. now rewrite rnd_opp, Rabs_Ropp. }
    destruct (fsub_cases t x y Fx Fy) as [[F V]|[E L]], (fsub_cases t y x Fy Fx) as [[F' V']|[E' L']].
    + apply B2R_Bsign_inj. * now apply fabs_finite. * now apply fabs_finite. * change (val (fabs (fsub x y)) = val (fabs (fsub y x))). rewrite !fabs_val, V, V'. now rewrite RN. * unfold finite, fabs in *. rewrite !Bsign_Babs; auto.
    + exfalso. rewrite RN, <- V in L'. pose proof (val_lt t (fsub x y)). lra.
    + exfalso. rewrite <- RN, <- V' in L. pose proof (val_lt t (fsub y x)). lra.
    + now rewrite E, E'.
  - destruct y as [s|s| |s m e H]; try discriminate Fy; destruct x as [s'|s'| |s' m' e' H']; try discriminate Fx; try reflexivity.
  - destruct x as [s|s| |s m e H]; try discriminate Fx; destruct y as [s'|s'| |s' m' e' H']; try reflexivity. destruct s, s'; reflexivity. Qed.
Lemma square_abs t (x : float t) : fsquare x = fsquare (fabs x).
Proof. destruct x as [s|s| |s m e H]; try reflexivity; try (destruct s; reflexivity). apply B2SF_inj. unfold fsquare, fmul, fabs. cbn. rewrite !B2SF_SF2B. destruct s; reflexivity. Qed.
Lemma fsquare_flip t (x y : float t) : fsquare (fsub x y) = fsquare (fsub y x). Proof. rewrite square_abs, fabs_flip, <- square_abs. reflexivity. Qed.
Lemma combine_flip {A B} (l : list A) : forall (r : list B), combine r l = map (fun p => (snd p, fst p)) (combine l r).
Proof. induction l as [|x l IH]; intros [|y r]; cbn; auto. f_equal. auto. Qed.
Lemma pairs_flip {T X} (f : T * T -> X) k A B i j : (forall x y, f (x, y) = f (y, x)) -> map f (row_pairs k B A j i) = map f (row_pairs k A B i j).
Proof. intro H. unfold row_pairs. rewrite (combine_flip (row k A i) (row k B j)), map_map. apply map_ext. intros [x y]. apply H. Qed.
Lemma given_flip {T W} (one : W) (a b : tensor T) m n k A B : given one a b None m n k A B (repeat one k) -> given one b a None n m k B A (repeat one k).
Proof. intros (G1 & G2 & G3 & G4 & G5 & G6). split; [exact G2|]. split; [exact G1|]. split; [exact G4|]. split; [exact G3|]. split; [exact G5|]. reflexivity. Qed.
Lemma l_fdist_symmetric : forall t sigma sigma' dev (a b : tensor (float t)) m n k A B M, given (of_int 1 : float t) a b None m n k A B (repeat (of_int 1) k) -> schedule sigma -> schedule sigma' -> In M [feuclidean; fsq_euclidean; fcity_block; fchebyshev] ->
  exists D, gives (fcdist M sigma dev a b) dev m n D /\ gives (fcdist M sigma' dev b a) dev n m (fun j i => D i j).
Proof. intros t sigma sigma' dev a b m n k A B M G Sg Sg' HM. destruct (sums_table sigma dev a b m n k A B G Sg) as (T1 & T2 & T3). pose proof (cheb_table sigma dev a b m n k A B G Sg) as T4. apply given_flip in G. destruct (sums_table sigma' dev b a n m k B A G Sg') as (S1 & S2 & S3). pose proof (cheb_table sigma' dev b a n m k B A G Sg') as S4.
  assert (C : forall i j, map city_term (row_pairs k B A j i) = map city_term (row_pairs k A B i j)) by (intros; apply pairs_flip; intros; apply fabs_flip). assert (Q : forall i j, map sq_term (row_pairs k B A j i) = map sq_term (row_pairs k A B i j)) by (intros; apply pairs_flip; intros; apply fsquare_flip).
  destruct HM as [<- |[<- |[<- |[<- |[]]]]]; eexists; [split; [exact T1|]; eapply gives_ext; [exact S1|]|split; [exact T2|]; eapply gives_ext; [exact S2|]|split; [exact T3|]; eapply gives_ext; [exact S3|]|split; [exact T4|]; eapply gives_ext; [exact S4|]]; intros i j _ _; cbv beta; [rewrite Q|rewrite Q|rewrite C|rewrite C]; reflexivity. Qed.
(** ** the Hamming distance *)
Lemma ones c : (c <= 2 ^ 53)%Z -> forall n z, (0 <= z)%Z -> (z + Z.of_nat n <= c)%Z -> forall s : float F64, finite s -> val s = IZR z -> finite (fold_left fadd (repeat (of_int 1) n) s) /\ val (fold_left fadd (repeat (of_int 1) n) s) = IZR (z + Z.of_nat n).
Proof. intros Hc. induction n as [|n IH]; intros z Hz Hn s F V; [cbn; rewrite Z.add_0_r; auto|]. cbn [repeat fold_left]. destruct (int_val F64 1) as [V1 F1]; [discriminate|]. replace (z + Z.of_nat (S n))%Z with (z + 1 + Z.of_nat n)%Z by lia.
  assert (Gf : rnd F64 (IZR (z + 1)) = IZR (z + 1)). { destruct (int_val F64 (z + 1)) as [V2 _]; [change (prec F64) with 53%Z; lia|]. rewrite <- V2. apply rnd_id, val_format. }
  destruct (fadd_val F64 s (of_int 1) F F1) as [V3 F3]; rewrite V, V1, <- plus_IZR, Gf in *. { destruct (int_val F64 (z + 1)) as [V2 _]; [change (prec F64) with 53%Z; lia|]. rewrite <- V2. apply val_lt. } apply IH; auto; lia. Qed.
Lemma amount_ones t k (A B : nat -> nat -> float t) i j : amount fzero fadd (fun x y => negb (feq x y)) (row k A i) (row k B j) (repeat (of_int 1 : float F64) k) = fold_left fadd (repeat (of_int 1) (differing (row_pairs k A B i j))) fzero.
Proof. unfold amount, sum_list. f_equal. unfold differing, triples. fold (row_pairs k A B i j). rewrite <- (row_pairs_length k A B i j) at 2. generalize (row_pairs k A B i j) as ps. induction ps as [|p ps IH]; [reflexivity|]. cbn [length repeat combine filter fst snd]. destruct (negb (feq (fst p) (snd p))); cbn [map length repeat snd]; [f_equal|]; exact IH. Qed.
Lemma differing_le {t} (ps : list (float t * float t)) : (differing ps <= length ps)%nat.
Proof. unfold differing. induction ps as [|p ps IH]; cbn [filter length]; [lia|]. destruct (negb (feq (fst p) (snd p))); cbn [length]; lia. Qed.
Lemma l_fhamming : forall t sigma dev (a b : tensor (float t)) m n k A B, given (of_int 1 : float F64) a b None m n k A B (repeat (of_int 1) k) -> schedule sigma -> (Z.of_nat k <= 2 ^ 53)%Z ->
  exists D, gives (fcdist_hamming sigma dev a b) dev m n D /\ forall i j, (i < m)%nat -> (j < n)%nat -> hamming_to (row_pairs k A B i j) (D i j).
Proof. intros t sigma dev a b m n k A B G Sg Hk. destruct (l_cdist_ratios (float t) (float F64) fzero (of_int 1) fadd fmul fdiv fmax (fun w => feq w fzero) fsub fadd (fun _ => fzero) feq (fun n => of_int (Z.of_nat n)) sigma _ dev a b None m n k A B _ G (size_ok t) Sg) as (_ & _ & _ & H). cbv zeta in *.
  eexists. split; [exact H|]. intros i j _ _. cbv beta. rewrite amount_ones. unfold Spec_Dist.total. cbn [weighted]. pose proof (given_none _ _ _ _ _ _ _ _ G) as K0. unfold hamming_to. rewrite row_pairs_length. set (ps := row_pairs k A B i j). pose proof (differing_le ps) as Le. unfold ps in Le. rewrite row_pairs_length in Le. fold ps in Le. set (c := differing ps) in *. clearbody c. clear H G Sg ps.
  destruct (ones (Z.of_nat k) Hk c 0 (Z.le_refl 0) ltac:(lia) fzero eq_refl eq_refl) as [F V]. rewrite Z.add_0_l, <- INR_IZR_INZ in V. destruct (int_val F64 (Z.of_nat k)) as [Vk Fk]; [change (prec F64) with 53%Z; lia|]. rewrite <- INR_IZR_INZ in Vk. set (s := fold_left fadd (repeat (of_int 1) c) fzero) in *. clearbody s.
  assert (Pk : 1 <= INR k) by (apply (le_INR 1); lia). assert (Pc : 0 <= INR c <= INR k) by (split; [apply pos_INR|now apply le_INR]). set (q := INR c / INR k). assert (Q0 : 0 <= q <= 1). { unfold q. split; [apply Rmult_le_pos; [lra|apply Rlt_le, Rinv_0_lt_compat; lra]|]. apply Rmult_le_reg_r with (INR k); [lra|]. unfold Rdiv. rewrite Rmult_assoc, Rinv_l by lra. lra. }
  assert (R0 : 0 <= rnd F64 q <= 1). { split. - rewrite <- (rnd_id F64 0) by apply generic_format_0. apply rnd_le. lra. - rewrite <- (rnd_id F64 1); [apply rnd_le; lra|]. change 1 with (two 0). apply generic_format_bpow. cbn. lia. }
  assert (Eq : val s / val (of_int (Z.of_nat k) : float F64) = q) by (rewrite V, Vk; reflexivity).
  destruct (fdiv_val F64 s (of_int (Z.of_nat k)) F) as [Vd Fd]; rewrite ?Eq in *. { rewrite Vk. lra. } { rewrite Rabs_pos_eq by lra. eapply Rle_lt_trans; [apply R0|]. change 1 with (two 0). apply two_lt. reflexivity. }
  split; [exact Fd|]. rewrite Vd. split; [exact R0|]. destruct (Nat.eq_dec c 0) as [-> |C].
  - assert (E : q = 0) by (unfold q, Rdiv; cbn; ring). rewrite E, round_0 by auto with typeclass_instances. rewrite Rminus_0_r, Rabs_R0. split; [lra|]. tauto.
  - assert (C1 : 1 <= INR c) by (apply (le_INR 1); lia). assert (Bk : INR k <= two 53). { rewrite INR_IZR_INZ. change (two 53) with (IZR (2 ^ 53)). now apply IZR_le. } assert (Lq : two (-53) <= q). { change (-53)%Z with (- (53))%Z. unfold two. rewrite bpow_opp. fold (two 53). unfold q. apply Rle_trans with (/ INR k). { apply Rinv_le_contravar; lra. } unfold Rdiv. rewrite <- (Rmult_1_l (/ INR k)) at 1. apply Rmult_le_compat_r; [apply Rlt_le, Rinv_0_lt_compat; lra|exact C1]. }
    split.
    + pose proof (relative_error_N_FLT radix2 (3 - emax F64 - prec F64) (prec F64) ltac:(cbn; lia) (fun x => negb (Z.even x)) q) as X. rewrite (Rabs_pos_eq q) in X by lra. replace (/ 2 * bpow radix2 (- prec F64 + 1)) with (unit_roundoff F64) in X; [|unfold unit_roundoff, two; rewrite bpow_plus; change (bpow radix2 1) with 2; field]. apply X. eapply Rle_trans; [|exact Lq]. apply bpow_le. cbn. discriminate.
    + split; [|tauto]. intro Z. exfalso. assert (two (-53) <= rnd F64 q). { rewrite <- (rnd_id F64 (two (-53))); [now apply rnd_le|]. apply generic_format_bpow. cbn. lia. } pose proof (bpow_gt_0 radix2 (-53)). unfold two in *. lra. Qed.
(** ** refutations *)
Definition cell_of {t} (r : res (tensor (float t))) : option (float t) := match r with Ok q => match t_data q with [x] => Some x | _ => None end | _ => None end.
Lemma cell_ex t (f : float t -> bool) r : match cell_of r with Some x => f x | None => false end = true -> exists x, is_cell r x /\ f x = true.
Proof. unfold cell_of. destruct r as [q| |]; try discriminate. destruct (t_data q) as [|x [|]] eqn:E; try discriminate. intro H. exists x. split; [exists q; auto|exact H]. Qed.
Lemma cell_ok {T} (x : T) : tensor_ok (one_cell x). Proof. unfold one_cell. concrete_tensor. Qed.
Lemma l_feuclid_zero_refuted : let x : float F64 := fdiv (of_int 1) (of_int (2 ^ 600)) in let y : float F64 := fzero in finite x /\ feq x y = false /\ tensor_ok (one_cell x) /\ tensor_ok (one_cell y) /\
  forall M, In M [feuclidean; fsq_euclidean] -> exists d, is_cell (fcdist M (fun l => l) RowMajor (one_cell x) (one_cell y)) d /\ feq d fzero = true.
Proof. intros x y. split; [vm_compute; reflexivity|]. split; [vm_compute; reflexivity|]. split; [apply cell_ok|]. split; [apply cell_ok|]. intros M HM. apply cell_ex. destruct HM as [<- |[<- |[]]]; vm_compute; reflexivity. Qed.
Lemma l_fcity_triangle_refuted : let x : float F64 := of_int (-1) in let y : float F64 := fdiv (of_int 1) (of_int (2 ^ 53)) in let z : float F64 := fadd (of_int 1) (fdiv (of_int 3) (of_int (2 ^ 52))) in
  finite x /\ finite y /\ finite z /\ forall M, In M [fcity_block; fchebyshev; feuclidean] -> exists dxy dyz dxz, is_cell (fcdist M (fun l => l) RowMajor (one_cell x) (one_cell y)) dxy /\ is_cell (fcdist M (fun l => l) RowMajor (one_cell y) (one_cell z)) dyz /\ is_cell (fcdist M (fun l => l) RowMajor (one_cell x) (one_cell z)) dxz /\
    feq dxy (of_int 1) = true /\ feq dyz (fadd (of_int 1) (fdiv (of_int 2) (of_int (2 ^ 52)))) = true /\ feq dxz (fadd (of_int 2) (fdiv (of_int 4) (of_int (2 ^ 52)))) = true /\ flt (fadd dxy dyz) dxz = true.
Proof. intros x y z. split; [vm_compute; reflexivity|]. split; [vm_compute; reflexivity|]. split; [vm_compute; reflexivity|]. intros M HM.
  assert (K : match cell_of (fcdist M (fun l => l) RowMajor (one_cell x) (one_cell y)), cell_of (fcdist M (fun l => l) RowMajor (one_cell y) (one_cell z)), cell_of (fcdist M (fun l => l) RowMajor (one_cell x) (one_cell z)) with
    | Some dxy, Some dyz, Some dxz => feq dxy (of_int 1) && feq dyz (fadd (of_int 1) (fdiv (of_int 2) (of_int (2 ^ 52)))) && feq dxz (fadd (of_int 2) (fdiv (of_int 4) (of_int (2 ^ 52)))) && flt (fadd dxy dyz) dxz | _, _, _ => false end = true) by (destruct HM as [<- |[<- |[<- |[]]]]; vm_compute; reflexivity).
  assert (C : forall r d, cell_of r = Some d -> is_cell (r : res (tensor (float F64))) d). { unfold cell_of. intros [q| |] d; try discriminate. destruct (t_data q) as [|w [|]] eqn:E; try discriminate. intros [= <-]. exists q. auto. }
  destruct (cell_of (fcdist M _ _ (one_cell x) (one_cell y))) as [dxy|] eqn:E1; [|discriminate]. destruct (cell_of (fcdist M _ _ (one_cell y) (one_cell z))) as [dyz|] eqn:E2; [|discriminate]. destruct (cell_of (fcdist M _ _ (one_cell x) (one_cell z))) as [dxz|] eqn:E3; [|discriminate].
  exists dxy, dyz, dxz. rewrite !andb_true_iff in K. destruct K as [[[K1 K2] K3] K4]. apply C in E1, E2, E3. tauto. Qed.
