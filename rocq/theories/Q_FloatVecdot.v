(** Lemmas behind Properties_FloatVecdot.v *)
From Coq Require Import ZArith Reals List Lia Lra Bool.
From Flocq Require Import Core Relative BinarySingleNaN.
From Verif Require Import Base Spec Spec_Tensordot Spec_Vecdot Spec_Float Spec_FloatReduce Spec_FloatMatmul Spec_FloatVecdot M_Layout M_Tensor P_Tensor Q_Tensor M_Vecdot Q_Vecdot P_Param P_ParamDot M_Float P_FloatOps P_FloatSum Q_FloatReduce P_FloatDot M_FloatVecdot.
Import ListNotations.
Local Open Scope R_scope.

Notation mulp := (fun p => fmul (fst p) (snd p)).
Lemma ok_transfer {A B} (x : tensor A) (y : tensor B) : t_layout x = t_layout y -> length (t_data x) = length (t_data y) -> tensor_ok y -> tensor_ok x.
Proof. intros E L H. apply tensor_ok_good in H as [G I]. apply tensor_ok_good. rewrite E, L. auto. Qed.
Lemma F2_nth_both {A B} (R : A -> B -> Prop) l l' k x y : Forall2 R l l' -> nth_error l k = Some x -> nth_error l' k = Some y -> R x y.
Proof. intros F. revert k. induction F as [|? ? ? ? HF F IH]; intros [|k]; cbn [nth_error]; try discriminate; [|apply IH]. intros E1 E2. injection E1 as <-. injection E2 as <-. exact HF. Qed.
Section Shadowed.
  Context {t : float_type} (G : float t -> shadow -> Prop) (of : float t -> shadow).
  Context (G0 : G fzero sh_zero) (Ga : forall x y s s', G x s -> G y s' -> G (fadd x y) (sh_add s s')) (Go : forall x, G x (of x)) (Oc : forall x, fst (snd (of x)) = 1%nat).
  Notation sh ps := (total sh_zero sh_add (map (fun p => of (mulp p)) ps)).
  Definition shadow_dot (o : order) (a b : tensor (float t)) pa pb mx v : Prop := exists ps, paired o a b pa pb mx ps /\ G v (sh ps).
  Lemma sh_vecdot o (a b : tensor (float t)) axes : tensor_ok a -> tensor_ok b -> size (t_shape a) <> 0%nat -> size (t_shape b) <> 0%nat ->
    match fvecdot o a b axes with
    | Ok c => tensor_ok c /\ exists pa pb, contractible o (t_shape a) (t_shape b) axes pa pb (t_shape c) /\ forall mx, valid (t_shape c) mx -> exists v, at_ c mx = Some v /\ shadow_dot o a b pa pb mx v
    | Err _ => ~ exists pa pb s, contractible o (t_shape a) (t_shape b) axes pa pb s
    | Panic => False
    end.
  Proof using G0 Ga Go. intros Ta Tb Sa Sb. pose proof (l_vecdot _ _ _ sh_zero sh_add (fun x y => of (fmul x y)) o a b axes sh_monoid Ta Tb Sa Sb) as H.
    pose proof (two_vecdot G G fzero fadd fmul sh_zero sh_add (fun x y => of (fmul x y)) G0 (fun x y x' y' => Ga x x' y y') (fun x y => Go _) (fun x y H => H) (fun x y p q H => Ga _ _ _ _ H (Go _)) o a b axes) as T. unfold fvecdot.
    destruct T as [c d [El F]|e|]; auto. destruct H as (Td & pa & pb & Cn & H). split; [eapply ok_transfer; [exact El|now apply F2_length in F|exact Td]|]. unfold t_shape in *. rewrite El. exists pa, pb. split; auto.
    intros mx V. destruct (H mx V) as (v & Hv & xs & ys & E1 & E2 & ->). destruct (F2_elem G _ _ _ _ _ F Hv) as (x & Hx & Gx). exists x. split; [unfold at_; now rewrite El|]. exists (combine xs ys). split; [exists xs, ys; auto|exact Gx]. Qed.
  Lemma sh_rayon switch pool o (a b : tensor (float t)) axes r : tensor_ok a -> tensor_ok b -> size (t_shape a) <> 0%nat -> size (t_shape b) <> 0%nat -> injective (t_layout a) -> injective (t_layout b) -> fvecdot_rayon switch pool o a b axes r ->
    match r with
    | Ok c => tensor_ok c /\ injective (t_layout c) /\ exists pa pb, contractible o (t_shape a) (t_shape b) axes pa pb (t_shape c) /\ forall mx, valid (t_shape c) mx -> exists v, at_ c mx = Some v /\ shadow_dot o a b pa pb mx v
    | Err _ => ~ exists pa pb s, contractible o (t_shape a) (t_shape b) axes pa pb s
    | Panic => False
    end.
  Proof using G0 Ga Go. intros Ta Tb Sa Sb Ja Jb Hr. pose proof (l_vecdot _ _ _ sh_zero sh_add (fun x y => of (fmul x y)) o a b axes sh_monoid Ta Tb Sa Sb) as H.
    destruct (two_vecdot_rayon G G fzero fadd fmul sh_zero sh_add (fun x y => of (fmul x y)) G0 (fun x y x' y' => Ga x x' y y') (fun x y => Go _) (fun x y H => H) (fun x y p q H => Ga _ _ _ _ H (Go _)) switch pool o a b axes r Hr) as (r' & Hr' & T).
    destruct (l_vecdot_rayon _ _ _ sh_zero sh_add (fun x y => of (fmul x y)) switch pool o a b axes r' sh_monoid Ta Tb Sa Sb Ja Jb Hr') as [E J]. rewrite <- E in H.
    destruct T as [c d [El F]|e|]; auto. destruct H as (Td & pa & pb & Cn & H). split; [eapply ok_transfer; [exact El|now apply F2_length in F|exact Td]|]. split; [rewrite El; now apply J|]. unfold t_shape in *. rewrite El. exists pa, pb. split; auto.
    intros mx V. destruct (H mx V) as (v & Hv & xs & ys & E1 & E2 & ->). destruct (F2_elem G _ _ _ _ _ F Hv) as (x & Hx & Gx). exists x. split; [unfold at_; now rewrite El|]. exists (combine xs ys). split; [exists xs, ys; auto|exact Gx]. Qed.

  (** ** writing into an existing tensor: the shadow of an old cell carries its position *)
  Definition tagged : Type := shadow * (nat * nat).
  Definition tg_zero : tagged := (sh_zero, (0, 0)%nat).
  Definition tg_add (x y : tagged) : tagged := (sh_add (fst x) (fst y), (fst (snd x) + fst (snd y), snd (snd x) + snd (snd y))%nat).
  Lemma tg_monoid : comm_monoid tg_zero tg_add.
  Proof. destruct sh_monoid as (A & C & I). split; [|split].
    - intros [x [i j]] [y [i' j']] [z [i'' j'']]. unfold tg_add. cbn [fst snd]. rewrite A, !Nat.add_assoc. reflexivity.
    - intros [x [i j]] [y [i' j']]. unfold tg_add. cbn [fst snd]. rewrite C, (Nat.add_comm i), (Nat.add_comm j). reflexivity.
    - intros [x [i j]]. unfold tg_add, tg_zero. cbn [fst snd]. rewrite I. reflexivity. Qed.
  Definition tg_mul (x y : float t) : tagged := (of (fmul x y), (0, 0)%nat).
  Lemma tg_total ps : total tg_zero tg_add (map (fun p => tg_mul (fst p) (snd p)) ps) = (sh ps, (0, 0)%nat).
  Proof. unfold total. induction ps as [|p ps IH]; [reflexivity|]. cbn [map fold_right]. rewrite IH. reflexivity. Qed.
  Definition tg_sum (x : float t) (y : tagged) : Prop := snd y = (0, 0)%nat /\ G x (fst y).
  Definition tg_cell (old : list (float t)) (x : float t) (y : tagged) : Prop :=
    tg_sum x y \/ (fst (snd y) = 1%nat /\ fst (snd (fst y)) = 0%nat /\ nth_error old (snd (snd y)) = Some x) \/ (fst (snd y) <> 0%nat /\ fst (snd (fst y)) <> 0%nat).
  Definition tg_old (i : nat) : tagged := (sh_zero, (1, i)%nat).
  Lemma tg_start (old : list (float t)) : Forall2 (tg_cell old) old (map tg_old (seq 0 (length old))).
  Proof. assert (X : forall pre l, old = pre ++ l -> Forall2 (tg_cell old) l (map tg_old (seq (length pre) (length l)))).
    { intros pre l. revert pre. induction l as [|x l IH]; intros pre E; cbn [length seq map]; constructor.
      - right. left. cbn. split; auto. split; auto. rewrite E, nth_error_app2 by lia. rewrite Nat.sub_diag. reflexivity.
      - replace (S (length pre)) with (length (pre ++ [x])) by (rewrite app_length; cbn; lia). apply IH. rewrite <- app_assoc. exact E. }
    exact (X [] old eq_refl). Qed.
  Lemma sh_from o (c a b : tensor (float t)) axes : tensor_ok c -> tensor_ok a -> tensor_ok b -> size (t_shape a) <> 0%nat -> size (t_shape b) <> 0%nat -> injective (t_layout c) ->
    match fvecdot_from o c a b axes with
    | Ok c' => t_layout c' = t_layout c /\ untouched_outside (t_layout c) (t_data c) (t_data c') /\
        exists pa pb, contractible o (t_shape a) (t_shape b) axes pa pb (t_shape c) /\ forall mx, valid (t_shape c) mx -> exists v, at_ c' mx = Some v /\ shadow_dot o a b pa pb mx v
    | Err _ => ~ exists pa pb, contractible o (t_shape a) (t_shape b) axes pa pb (t_shape c)
    | Panic => False
    end.
  Proof using G0 Ga Go Oc. intros Tc Ta Tb Sa Sb J. set (old := t_data c). set (ds := map tg_old (seq 0 (length old))). set (c2 := mkTensor ds (t_layout c)).
    assert (Fd : Forall2 (tg_cell old) old ds) by apply tg_start. assert (T2 : tensor_ok c2) by (eapply ok_transfer; [| |exact Tc]; [reflexivity|symmetry; now apply F2_length in Fd]).
    pose proof (l_vecdot_from _ _ _ tg_zero tg_add tg_mul o c2 a b axes tg_monoid T2 Ta Tb Sa Sb J) as H.
    assert (T : res_rel (tensor_rel (tg_cell old)) (vecdot_from fzero fadd fmul o c a b axes) (vecdot_from tg_zero tg_add tg_mul o c2 a b axes)).
    { apply (two_vecdot_from tg_sum (tg_cell old)).
      - split; [reflexivity|exact G0].
      - intros x y x' y' [E1 H1] [E2 H2]. split; [unfold tg_add; cbn [snd]; rewrite E1, E2; reflexivity|]. now apply Ga.
      - intros x y. split; [reflexivity|apply Go].
      - intros x y H'. now left.
      - intros x y p q [[E1 H1]|[(E1 & E2 & _)|[E1 E2]]].
        + left. split; [unfold tg_add; cbn [snd]; rewrite E1; reflexivity|]. apply Ga; [exact H1|apply Go].
        + right. right. unfold tg_add, tg_mul, sh_add. cbn [fst snd]. rewrite E1, E2, Oc. split; discriminate.
        + right. right. unfold tg_add, tg_mul, sh_add. cbn [fst snd]. rewrite Oc. lia.
      - split; [reflexivity|exact Fd]. }
    unfold fvecdot_from. destruct T as [x y [El F]|e|]; auto. destruct H as (El2 & [Ul Un] & pa & pb & Cn & H). unfold t_shape in *. cbn [c2 t_layout t_data] in *. split; [congruence|]. pose proof (F2_length _ _ _ F) as LF. pose proof (F2_length _ _ _ Fd) as LD. split.
    - split; [fold old; congruence|]. intros p Hp. specialize (Un p Hp). unfold peek in *. destruct (p <? 0)%Z; [reflexivity|]. fold old. set (k := Z.to_nat p) in *.
      destruct (nth_error (t_data x) k) as [u|] eqn:Eu.
      + assert (Hk : (k < length old)%nat) by (apply nth_error_Some_lt in Eu || (assert (nth_error (t_data x) k <> None) as Nn by congruence; apply nth_error_Some in Nn); lia).
        assert (Ed : nth_error ds k = Some (tg_old k)). { unfold ds. rewrite nth_error_map. rewrite (nth_error_nth' _ 0%nat) by (rewrite seq_length; lia). cbn [option_map]. rewrite seq_nth by lia. reflexivity. }
        rewrite Ed in Un. assert (Q : tg_cell old u (tg_old k)). { exact (F2_nth_both _ _ _ _ _ _ F Eu Un). }
        destruct Q as [[Q _]|[(_ & _ & Q)|[_ Q]]]; [discriminate Q|cbn in Q; now rewrite Q|now contradiction Q].
      + symmetry. apply nth_error_None in Eu. apply nth_error_None. lia.
    - exists pa, pb. split; auto. intros mx V. destruct (H mx V) as (v & Hv & xs & ys & E1 & E2 & Ev). rewrite tg_total in Ev. subst v. destruct (F2_elem (tg_cell old) _ _ _ _ _ F Hv) as (u & Hu & Q).
      exists u. split; [unfold at_; now rewrite El|]. exists (combine xs ys). split; [exists xs, ys; auto|]. destruct Q as [[_ Q]|[(Q & _)|[Q _]]]; [exact Q|discriminate Q|now contradiction Q]. Qed.
End Shadowed.

(** ** from the shadow to the bound *)
Lemma near_dots t ps (v : float t) : near v (total sh_zero sh_add (map (fun p => sh_of is_finite (mulp p)) ps)) -> finite_pairs ps -> dot_no_overflow ps -> dots_to ps v.
Proof. intros R Fp NO. set (f := fun p : float t * float t => fmul (fst p) (snd p)). set (n := length ps).
  pose proof (unit_pos t) as U. pose proof (small_pos t) as S0. pose proof (dot_magnitude_pos ps) as M0. unfold dot_no_overflow in NO. fold n in NO.
  assert (TE : forall p, In p ps -> finite (f p) /\ Rabs (val (f p) - val (fst p) * val (snd p)) <= unit_roundoff t * Rabs (val (fst p) * val (snd p)) + smallest t).
  { intros p Hp. unfold finite_pairs in Fp. rewrite Forall_forall in Fp. destruct (Fp p Hp) as [F1 F2].
    assert (N1 : (1 <= n)%nat) by (unfold n; destruct ps; [easy|cbn; lia]).
    destruct (fmul_err t (fst p) (snd p) F1 F2) as [F3 E3]; [|auto].
    eapply Rle_lt_trans; [|exact NO]. apply Rplus_le_compat.
    - apply Rmult_le_compat; [pose proof (rounded_1 t 1); lra|apply Rabs_pos|now apply rounded_le|now apply dot_member].
    - unfold dot_underflow. pose proof (rounded_1 t (n - 1)) as G1. apply (le_INR 1 n) in N1. cbn in N1. assert (1 <= INR n * rounded t (n - 1)) by nra. nra. }
  assert (FT : Forall finite (map f ps)). { apply Forall_forall. intros y Hy. apply in_map_iff in Hy as (p & <- & Hp). now apply TE. }
  destruct (terms_err f (fun p => val (fst p) * val (snd p)) (1 + unit_roundoff t) (smallest t) ltac:(lra) ltac:(lra) ps) as (E1 & E2 & _).
  { apply Forall_forall. intros p Hp. unfold off. destruct (TE p Hp) as [_ H]. replace (1 + unit_roundoff t - 1) with (unit_roundoff t) by ring. exact H. }
  fold (dot_magnitude ps) in E1, E2. fold (exact_dot ps) in E1. fold n in E1, E2. set (A := dot_magnitude ps) in *. replace (1 + unit_roundoff t - 1) with (unit_roundoff t) in E1 by ring.
  pose proof (rounded_1 t (n - 1)) as G1. pose proof (pos_INR n) as N0.
  assert (GN : rounded t (n - 1) * (1 + unit_roundoff t) * A <= rounded t n * A).
  { destruct n as [|m] eqn:EN.
    - unfold n in EN. destruct ps; [|discriminate EN]. unfold A, dot_magnitude, rsum. cbn. lra.
    - apply Rmult_le_compat_r; [exact M0|]. replace (Datatypes.S m - 1)%nat with m by lia. rewrite rounded_S. lra. }
  assert (MG : rounded t (n - 1) * magnitude (map f ps) <= rounded t n * A + dot_underflow t n).
  { unfold dot_underflow. apply Rle_trans with (rounded t (n - 1) * ((1 + unit_roundoff t) * A + INR n * smallest t)); [apply Rmult_le_compat_l; lra|]. lra. }
  assert (NV : no_overflow (map f ps)). { unfold no_overflow. rewrite map_length. fold n. lra. }
  assert (R' : near v (total sh_zero sh_add (map (sh_of is_finite) (map f ps)))) by (rewrite map_map; exact R).
  destruct (near_sums t (map f ps) v R' FT NV) as [FV EV]. split; [exact FV|]. rewrite map_length in EV. fold n in EV. fold n.
  replace (val v - exact_dot ps) with ((val v - exact_sum (map f ps)) + (exact_sum (map f ps) - exact_dot ps)) by ring.
  eapply Rle_trans; [apply Rabs_triang|]. fold A. unfold dot_underflow in *.
  assert ((rounded t (n - 1) - 1) * magnitude (map f ps) <= (rounded t (n - 1) - 1) * ((1 + unit_roundoff t) * A + INR n * smallest t)) by (apply Rmult_le_compat_l; lra). lra. Qed.
Lemma hit_dots t j k (ps : list (float t * float t)) (v : float t) : (3 - emax t - prec t <= j + k)%Z -> (j + k + prec t < emax t)%Z -> hit (j + k) v (total sh_zero sh_add (map (fun p => sh_of (is_multiple (j + k)) (mulp p)) ps)) ->
  multiple_pairs j k ps -> dot_magnitude ps <= two (j + k + prec t) -> finite v /\ val v = exact_dot ps.
Proof. intros K1 K2 R Mp L. set (f := fun p : float t * float t => fmul (fst p) (snd p)).
  assert (TE : forall p, In p ps -> (finite (f p) /\ multiple_of (j + k) (val (f p))) /\ val (f p) = val (fst p) * val (snd p)).
  { intros p Hp. unfold multiple_pairs in Mp. rewrite Forall_forall in Mp. destruct (Mp p Hp) as [[F1 (m & E1)] [F2 (m' & E2)]]. pose proof (dot_member ps p Hp) as DM.
    assert (MP : multiple_of (j + k) (val (fst p) * val (snd p))). { exists (m * m')%Z. rewrite E1, E2, mult_IZR. unfold two. rewrite bpow_plus. ring. }
    assert (ID : rnd t (val (fst p) * val (snd p)) = val (fst p) * val (snd p)). { apply rnd_id, (multiple_format t (j + k)); auto. lra. }
    destruct (fmul_val t (fst p) (snd p) F1 F2) as [E3 F3]. { rewrite ID. eapply Rle_lt_trans; [exact DM|]. eapply Rle_lt_trans; [exact L|]. now apply two_lt. }
    rewrite ID in E3. unfold f. rewrite E3. auto. }
  assert (S1 : exact_sum (map f ps) = exact_dot ps). { unfold exact_sum, exact_dot. rewrite map_map. f_equal. apply map_ext_in. intros p Hp. now apply TE. }
  assert (S2 : magnitude (map f ps) = dot_magnitude ps). { unfold magnitude, dot_magnitude. rewrite map_map. f_equal. apply map_ext_in. intros p Hp. f_equal. now apply TE. }
  rewrite <- S1. apply (hit_sums t (j + k)); [rewrite map_map; exact R| |now rewrite S2]. unfold multiples. apply Forall_forall. intros y Hy. apply in_map_iff in Hy as (p & <- & Hp). now apply TE. Qed.

(** ** closed statements *)
Lemma of_count {t} P (x : float t) : fst (snd (sh_of P x)) = 1%nat. Proof. reflexivity. Qed.
Lemma l_fvecdot : forall t o (a b : tensor (float t)) axes, tensor_ok a -> tensor_ok b -> size (t_shape a) <> 0%nat -> size (t_shape b) <> 0%nat ->
  match fvecdot o a b axes with
  | Ok c => tensor_ok c /\ exists pa pb, contractible o (t_shape a) (t_shape b) axes pa pb (t_shape c) /\ forall mx, valid (t_shape c) mx ->
      exists v ps, at_ c mx = Some v /\ paired o a b pa pb mx ps /\ (finite_pairs ps -> dot_no_overflow ps -> dots_to ps v)
  | Err _ => ~ exists pa pb s, contractible o (t_shape a) (t_shape b) axes pa pb s
  | Panic => False
  end.
Proof. intros t o a b axes Ta Tb Sa Sb. pose proof (sh_vecdot near (sh_of is_finite) near_zero (fun x y s s' => near_add x y s s') near_of o a b axes Ta Tb Sa Sb) as H.
  destruct (fvecdot o a b axes) as [c|e|]; auto. destruct H as (Tc & pa & pb & Cn & H). split; auto. exists pa, pb. split; auto. intros mx V. destruct (H mx V) as (v & Hv & ps & Hp & N). exists v, ps. split; auto. split; auto. now apply near_dots. Qed.
Lemma l_fvecdot_exact : forall t j k o (a b : tensor (float t)) axes, (3 - emax t - prec t <= j + k)%Z -> (j + k + prec t < emax t)%Z -> tensor_ok a -> tensor_ok b -> size (t_shape a) <> 0%nat -> size (t_shape b) <> 0%nat ->
  match fvecdot o a b axes with
  | Ok c => tensor_ok c /\ exists pa pb, contractible o (t_shape a) (t_shape b) axes pa pb (t_shape c) /\ forall mx, valid (t_shape c) mx ->
      exists v ps, at_ c mx = Some v /\ paired o a b pa pb mx ps /\ (multiple_pairs j k ps -> dot_magnitude ps <= two (j + k + prec t) -> finite v /\ val v = exact_dot ps)
  | Err _ => ~ exists pa pb s, contractible o (t_shape a) (t_shape b) axes pa pb s
  | Panic => False
  end.
Proof. intros t j k o a b axes K1 K2 Ta Tb Sa Sb. pose proof (sh_vecdot (hit (j + k)) (sh_of (is_multiple (j + k))) (hit_zero _) (fun x y s s' => hit_add _ x y s s' K1 K2) (hit_of _) o a b axes Ta Tb Sa Sb) as H.
  destruct (fvecdot o a b axes) as [c|e|]; auto. destruct H as (Tc & pa & pb & Cn & H). split; auto. exists pa, pb. split; auto. intros mx V. destruct (H mx V) as (v & Hv & ps & Hp & N). exists v, ps. split; auto. split; auto. now apply hit_dots. Qed.
Lemma l_fvecdot_rayon : forall t switch pool o (a b : tensor (float t)) axes r, tensor_ok a -> tensor_ok b -> size (t_shape a) <> 0%nat -> size (t_shape b) <> 0%nat -> injective (t_layout a) -> injective (t_layout b) -> fvecdot_rayon switch pool o a b axes r ->
  match r with
  | Ok c => tensor_ok c /\ injective (t_layout c) /\ exists pa pb, contractible o (t_shape a) (t_shape b) axes pa pb (t_shape c) /\ forall mx, valid (t_shape c) mx ->
      exists v ps, at_ c mx = Some v /\ paired o a b pa pb mx ps /\ (finite_pairs ps -> dot_no_overflow ps -> dots_to ps v)
  | Err _ => ~ exists pa pb s, contractible o (t_shape a) (t_shape b) axes pa pb s
  | Panic => False
  end.
Proof. intros t switch pool o a b axes r Ta Tb Sa Sb Ja Jb Hr. pose proof (sh_rayon near (sh_of is_finite) near_zero (fun x y s s' => near_add x y s s') near_of switch pool o a b axes r Ta Tb Sa Sb Ja Jb Hr) as H.
  destruct r as [c|e|]; auto. destruct H as (Tc & Jc & pa & pb & Cn & H). split; auto. split; auto. exists pa, pb. split; auto. intros mx V. destruct (H mx V) as (v & Hv & ps & Hp & N). exists v, ps. split; auto. split; auto. now apply near_dots. Qed.
Lemma l_fvecdot_from : forall t o (c a b : tensor (float t)) axes, tensor_ok c -> tensor_ok a -> tensor_ok b -> size (t_shape a) <> 0%nat -> size (t_shape b) <> 0%nat -> injective (t_layout c) ->
  match fvecdot_from o c a b axes with
  | Ok c' => t_layout c' = t_layout c /\ untouched_outside (t_layout c) (t_data c) (t_data c') /\ exists pa pb, contractible o (t_shape a) (t_shape b) axes pa pb (t_shape c) /\ forall mx, valid (t_shape c) mx ->
      exists v ps, at_ c' mx = Some v /\ paired o a b pa pb mx ps /\ (finite_pairs ps -> dot_no_overflow ps -> dots_to ps v)
  | Err _ => ~ exists pa pb, contractible o (t_shape a) (t_shape b) axes pa pb (t_shape c)
  | Panic => False
  end.
Proof. intros t o c a b axes Tc Ta Tb Sa Sb Jc. pose proof (sh_from near (sh_of is_finite) near_zero (fun x y s s' => near_add x y s s') near_of (of_count _) o c a b axes Tc Ta Tb Sa Sb Jc) as H.
  destruct (fvecdot_from o c a b axes) as [c'|e|]; auto. destruct H as (El & Un & pa & pb & Cn & H). split; auto. split; auto. exists pa, pb. split; auto. intros mx V. destruct (H mx V) as (v & Hv & ps & Hp & N). exists v, ps. split; auto. split; auto. now apply near_dots. Qed.
