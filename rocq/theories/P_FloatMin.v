(** Least and greatest floating-point numbers *)
From Coq Require Import ZArith Reals List Lia Lra Bool.
From Flocq Require Import Core Relative BinarySingleNaN.
From Verif Require Import Base Spec Spec_Float Spec_FloatReduce M_Float P_FloatOps M_FloatReduce P_FloatSum.
Import ListNotations.
Local Open Scope R_scope.

(** place of a float among the others, if it is not a NaN *)
Definition key {t} (x : float t) : R := match x with B754_infinity false => two (emax t) | B754_infinity true => - two (emax t) | _ => val x end.
Lemma key_compare t (x y : float t) : is_nan x = false -> is_nan y = false -> Bcompare x y = Some (Rcompare (key x) (key y)).
Proof. intros Nx Ny. assert (P : 0 < two (emax t)) by apply bpow_gt_0. destruct (is_finite x) eqn:Fx, (is_finite y) eqn:Fy.
  - rewrite Bcompare_correct by auto. destruct x, y; try discriminate; reflexivity.
  - destruct y as [|s| |]; try discriminate. pose proof (val_lt t x) as L. apply Rabs_lt_inv in L. assert (K : key x = val x) by (destruct x; try discriminate; reflexivity). rewrite K. cbn [key]. destruct s.
    + rewrite Rcompare_Gt by lra. destruct x; try discriminate; reflexivity.
    + rewrite Rcompare_Lt by lra. destruct x; try discriminate; reflexivity.
  - destruct x as [|s| |]; try discriminate. pose proof (val_lt t y) as L. apply Rabs_lt_inv in L. assert (K : key y = val y) by (destruct y; try discriminate; reflexivity). rewrite K. cbn [key]. destruct s.
    + rewrite Rcompare_Lt by lra. destruct y; try discriminate; reflexivity.
    + rewrite Rcompare_Gt by lra. destruct y; try discriminate; reflexivity.
  - destruct x as [|s| |], y as [|s'| |]; try discriminate. cbn [key]. destruct s, s'; cbn.
    + now rewrite Rcompare_Eq.
    + now rewrite Rcompare_Lt by lra.
    + now rewrite Rcompare_Gt by lra.
    + now rewrite Rcompare_Eq. Qed.
Lemma key_flt t (x y : float t) : is_nan x = false -> is_nan y = false -> flt x y = Rlt_bool (key x) (key y).
Proof. intros Nx Ny. pose proof (key_compare t x y Nx Ny) as C. unfold flt, Bltb, SpecFloat.SFltb. unfold Bcompare in C. rewrite C. unfold Rlt_bool. destruct (Rcompare _ _); reflexivity. Qed.
Lemma key_fle t (x y : float t) : is_nan x = false -> is_nan y = false -> fle x y = Rle_bool (key x) (key y).
Proof. intros Nx Ny. pose proof (key_compare t x y Nx Ny) as C. unfold fle, Bleb, SpecFloat.SFleb. unfold Bcompare in C. rewrite C. unfold Rle_bool. destruct (Rcompare _ _); reflexivity. Qed.
Lemma key_feq t (x y : float t) : is_nan x = false -> is_nan y = false -> feq x y = Req_bool (key x) (key y).
Proof. intros Nx Ny. pose proof (key_compare t x y Nx Ny) as C. unfold feq, Beqb, SpecFloat.SFeqb. unfold Bcompare in C. rewrite C. unfold Req_bool. destruct (Rcompare _ _); reflexivity. Qed.
Lemma highest_nan t : is_nan (fhighest : float t) = false. Proof. reflexivity. Qed.
Lemma highest_key t : key (fhighest : float t) = two (emax t) - two (emax t - prec t).
Proof. destruct t; cbv [fhighest Bmax_float]; cbn [key SF2B]; unfold val; cbn [B2R cond_Zopp]; unfold F2R; cbn [Fnum Fexp]; unfold two.
  - change (emax F32) with 128%Z. change (prec F32) with 24%Z. change (128 - 24)%Z with 104%Z. change (bpow radix2 128) with (bpow radix2 (24 + 104)). rewrite bpow_plus. change (bpow radix2 24) with (IZR (2 ^ 24)). change (IZR (Z.pos (shift_pos (Z.to_pos 24) 1 - 1))) with (IZR (2 ^ 24 - 1)). rewrite minus_IZR. ring.
  - change (emax F64) with 1024%Z. change (prec F64) with 53%Z. change (1024 - 53)%Z with 971%Z. change (bpow radix2 1024) with (bpow radix2 (53 + 971)). rewrite bpow_plus. change (bpow radix2 53) with (IZR (2 ^ 53)). change (IZR (Z.pos (shift_pos (Z.to_pos 53) 1 - 1))) with (IZR (2 ^ 53 - 1)). rewrite minus_IZR. ring. Qed.
Lemma key_opp t (x : float t) : key (Bopp x) = - key x.
Proof. destruct (is_finite x) eqn:F.
  - assert (E : key x = val x) by (destruct x; try discriminate; reflexivity). rewrite E. unfold val. rewrite <- B2R_Bopp. destruct x; try discriminate; reflexivity.
  - destruct x as [|s| |]; try discriminate; [destruct s; cbn [key Bopp negb]; lra|cbn [key Bopp]; unfold val; cbn [B2R]; lra]. Qed.

Section Direction.
  Context {t : float_type} (up : bool).
  Definition ext : float t -> float t -> float t := if up then fmax else fmin.
  Definition worst : float t := if up then flowest else fhighest.
  Definition place (x : float t) : R := if up then - key x else key x.
  Definition K : R := two (emax t) - two (emax t - prec t).
  Lemma worst_ok : is_nan worst = false /\ place worst = K.
  Proof. unfold worst, place, K. destruct up; split; try reflexivity.
    - unfold flowest. rewrite key_opp, highest_key. ring.
    - apply highest_key. Qed.
  Lemma ext_l x y : is_nan y = true -> ext x y = x \/ is_nan x = true.
  Proof. intro N. destruct (is_nan x) eqn:E; auto. left. unfold ext; destruct up; unfold fmin, fmax; rewrite E, N; reflexivity. Qed.
  Lemma ext_place x y : is_nan x = false -> is_nan y = false -> is_nan (ext x y) = false /\ place (ext x y) = Rmin (place x) (place y).
  Proof. intros Nx Ny. unfold ext, place. destruct up; unfold fmin, fmax; rewrite Nx, Ny.
    - rewrite key_flt by auto. case Rlt_bool_spec; intro H; [split; [auto|rewrite Rmin_right; lra]|split; [auto|rewrite Rmin_left; lra]].
    - rewrite key_flt by auto. case Rlt_bool_spec; intro H; [split; [auto|rewrite Rmin_right; lra]|split; [auto|rewrite Rmin_left; lra]]. Qed.
  (** the shadow of an accumulator: the least place of the numbers so far *)
  Definition omin (x y : option R) : option R := match x, y with None, y => y | x, None => x | Some x, Some y => Some (Rmin x y) end.
  Lemma omin_monoid : comm_monoid None omin.
  Proof. split; [|split].
    - intros [a|] [b|] [c|]; cbn; try reflexivity. now rewrite Rmin_assoc.
    - intros [a|] [b|]; cbn; try reflexivity. now rewrite Rmin_comm.
    - intros [a|]; reflexivity. Qed.
  Definition o_of (x : float t) : option R := if is_nan x then None else Some (place x).
  Definition best (s : float t) (o : option R) : Prop := is_nan s = false /\ place s = match o with None => K | Some r => Rmin r K end.
  Lemma best_init : best worst None. Proof. exact worst_ok. Qed.
  Lemma best_join x y o o' : best x o -> best y o' -> best (ext x y) (omin o o').
  Proof. intros [N P] [N' P']. destruct (ext_place x y N N') as [A B]. split; auto. rewrite B, P, P'. destruct o as [r|], o' as [r'|]; cbn [omin]; unfold Rmin; repeat destruct Rle_dec; lra. Qed.
  Lemma best_f x o p : best x o -> best (ext x p) (omin o (o_of p)).
  Proof. intro H. unfold o_of. destruct (is_nan p) eqn:Np.
    - destruct (ext_l x p Np) as [-> |E]; [destruct o; exact H|destruct H; congruence].
    - destruct H as [N P]. destruct (ext_place x p N Np) as [A B]. split; auto. rewrite B, P. destruct o as [r|]; cbn [omin]; [|apply Rmin_comm]. unfold Rmin; repeat destruct Rle_dec; lra. Qed.
  Lemma omin_total xs : match total None omin (map o_of xs) with None => forall x, In x xs -> is_nan x = true
    | Some r => (exists x, In x xs /\ is_nan x = false /\ place x = r) /\ forall x, In x xs -> is_nan x = false -> r <= place x end.
  Proof. unfold total. induction xs as [|x xs IH]; [easy|]. cbn [map fold_right]. set (o := fold_right omin None (map o_of xs)) in *. unfold o_of. destruct (is_nan x) eqn:N; destruct o as [r|]; cbn [omin].
    - destruct IH as [(y & Iy & Ny & Ey) L]. split; [exists y; split; [now right|auto]|]. intros z [<-|Iz] Nz; [congruence|auto].
    - intros z [<-|Iz]; auto.
    - destruct IH as [(y & Iy & Ny & Ey) L]. split.
      + unfold Rmin. destruct Rle_dec; [exists x; split; [now left|auto]|exists y; split; [now right|auto]].
      + intros z [<-|Iz] Nz; [apply Rmin_l|]. eapply Rle_trans; [apply Rmin_r|auto].
    - split; [exists x; split; [now left|auto]|]. intros z [<-|Iz] Nz; [lra|]. rewrite (IH z Iz) in Nz. discriminate. Qed.
  Lemma far_place x : is_nan x = false -> ~ far up x -> place x <= K.
  Proof. intros N F. assert (P : 0 < two (emax t - prec t) <= two (emax t)) by (split; [apply bpow_gt_0|apply bpow_le; pose proof (prec_range t); lia]). pose proof (@abs_B2R_le_emax_minus_prec (prec t) (emax t) _ x) as L. apply Rabs_le_inv in L. fold (val x) (two (emax t)) (two (emax t - prec t)) in L. fold K in L. unfold place, K. destruct (is_finite x) eqn:Fx.
    - assert (E : key x = val x) by (destruct x; try discriminate; reflexivity). rewrite E. unfold K in L. destruct up; lra.
    - destruct x as [|s| |]; try discriminate. cbn [key]. destruct s, up; try lra; exfalso; apply F; now right. Qed.
  Lemma far_place2 x : is_nan x = false -> far up x -> place x = two (emax t).
  Proof. intros N [E| ->]; [congruence|]. unfold place. cbn [key]. destruct up; ring. Qed.
  Lemma best_extremum xs m : best m (total None omin (map o_of xs)) -> (~ Forall (far up) xs -> extremum_of up xs m) /\ (Forall (far up) xs -> finite m /\ place m = K).
  Proof. intros [N P]. pose proof (omin_total xs) as T. destruct (total None omin (map o_of xs)) as [r|].
    - destruct T as [(x0 & I0 & N0 & E0) L]. split.
      + intro NF. assert (X : exists x, In x xs /\ ~ far up x). { apply Exists_exists. apply neg_Forall_Exists_neg; auto. intro x. unfold far. destruct (is_nan x) eqn:Nx; [left; auto|]. destruct x as [|s| |]; try (right; intros [|]; discriminate). destruct (Bool.bool_dec s up) as [-> |]; [left; now right|right; intros [|E]; [discriminate|inversion E; contradiction]]. }
        destruct X as (x1 & I1 & F1). assert (N1 : is_nan x1 = false). { destruct (is_nan x1) eqn:E; auto. exfalso. apply F1. now left. } pose proof (L x1 I1 N1) as L1. pose proof (far_place x1 N1 F1) as L2. rewrite Rmin_left in P by lra. split; auto. split.
        * exists x0. split; auto. rewrite key_feq by auto. apply Req_bool_true. rewrite <- E0 in P. unfold place in P. destruct up; lra.
        * intros x Ix Nx. pose proof (L x Ix Nx) as Lx. rewrite <- P in Lx. unfold place in Lx. destruct up; (rewrite key_fle by auto; apply Rle_bool_true; lra).
      + intro F. assert (r = two (emax t)) as ->. { rewrite <- E0. apply far_place2; auto. rewrite Forall_forall in F. auto. } assert (Q : 0 < two (emax t - prec t)) by apply bpow_gt_0. rewrite Rmin_right in P by (unfold K; lra). split; [|exact P]. unfold finite. destruct m as [|s| |]; try reflexivity; [|discriminate]. exfalso. unfold place, K in P. cbn [key] in P. assert (0 < two (emax t)) by apply bpow_gt_0. assert (two (emax t - prec t) < 2 * two (emax t)) by (assert (two (emax t - prec t) <= two (emax t)) by (apply bpow_le; pose proof (prec_range t); lia); lra). destruct s, up; lra.
    - split.
      + intro NF. exfalso. apply NF. apply Forall_forall. intros x Ix. left. auto.
      + intros _. split; [|exact P]. unfold finite. destruct m as [|s| |]; try reflexivity; [|discriminate]. exfalso. unfold place, K in P. cbn [key] in P. assert (Q : 0 < two (emax t - prec t)) by apply bpow_gt_0. assert (0 < two (emax t)) by apply bpow_gt_0. assert (two (emax t - prec t) < 2 * two (emax t)) by (assert (two (emax t - prec t) <= two (emax t)) by (apply bpow_le; pose proof (prec_range t); lia); lra). destruct s, up; lra. Qed.
  Lemma best_far xs m : Forall (far up) xs -> finite m -> place m = K -> forall x, In x xs -> feq m x = false.
  Proof. intros F Fm P x I. assert (Nm : is_nan m = false) by (destruct m; try discriminate; reflexivity). destruct (is_nan x) eqn:Nx. { destruct x; try discriminate. destruct m; reflexivity. }
    rewrite key_feq by auto. apply Req_bool_false. intro E. rewrite Forall_forall in F. pose proof (far_place2 x Nx (F x I)) as Q. assert (0 < two (emax t - prec t)) by apply bpow_gt_0. unfold place, K in *. destruct up; lra. Qed.
End Direction.
