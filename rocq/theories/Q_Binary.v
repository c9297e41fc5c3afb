(** allclose (C61). *)
From Coq Require Import SpecFloat.
From Verif Require Import Base Spec P_Index P_List M_Layout P_Layout P_Bounds P_Contig P_Strides Q_Layout M_Indexer P_Indexer M_Broadcast Q_Broadcast P_Broadcast M_Rearr M_Iter P_Iter P_Rearr P_BinOp Q_Rearr M_Kernel P_Kernel M_Tensor P_Tensor Q_Tensor M_Reduce P_Reduce M_Binary P_Binary.
Local Open Scope Z_scope.

Lemma andb_monoid : comm_monoid true andb.
Proof. split; [intros [] [] []; reflexivity|]. split; [intros [] []; reflexivity|intros []; reflexivity]. Qed.
Lemma total_andb xs : total true andb xs = true <-> Forall (fun x => x = true) xs.
Proof. unfold total. induction xs as [|x xs IH]; cbn; [split; auto|]. rewrite andb_true_iff, IH, Forall_cons_iff. reflexivity. Qed.
(** what the two kernels compute, given in the same form *)
Lemma allclose_gen {A B} (reduce : bool -> (bool -> A * B -> bool) -> (bool -> bool -> bool) -> (bool -> bool) -> list A -> layout -> list B -> layout -> res bool) o (close : A -> B -> bool) (ta : tensor A) (tb : tensor B) :
  (forall la lb sh, good la -> good lb -> l_shape la = sh -> l_shape lb = sh -> inside la (length (t_data ta)) -> inside lb (length (t_data tb)) ->
     reduce true (fun acc p => acc && close (fst p) (snd p)) andb (fun acc => acc) (t_data ta) la (t_data tb) lb = Ok (sum2 true andb (fun p => close (fst p) (snd p)) (t_data ta) (t_data tb) (pairs la lb sh))) ->
  tensor_ok ta -> tensor_ok tb ->
  match (let* p := broadcast_layout (t_layout ta) (t_layout tb) o in allclose_all reduce close (t_data ta) (fst p) (t_data tb) (snd p)) with
  | Ok r => exists s, broadcasts o (t_shape ta) (t_shape tb) s /\ size s <> 0%nat /\
      (r = true <-> forall jx, valid s jx -> exists x y, at_ ta (source_index o (t_shape ta) jx) = Some x /\ at_ tb (source_index o (t_shape tb) jx) = Some y /\ close x y = true)
  | Err _ => forall s, broadcasts o (t_shape ta) (t_shape tb) s -> size s = 0%nat
  | Panic => False
  end.
Proof. intros K Ha Hb. apply tensor_ok_good in Ha as [Ga Ia]. apply tensor_ok_good in Hb as [Gb Ib].
  pose proof (l_broadcast_layout o (t_layout ta) (t_layout tb) (good_wf _ Ga) (good_wf _ Gb)) as BL. destruct (broadcast_layout (t_layout ta) (t_layout tb) o) as [[r1 r2]|er|] eqn:E; cbn [bind fst snd].
  2:{ intros s Bs. exfalso. exact (BL s Bs). } 2:{ exact BL. } clear BL.
  destruct (broadcast_good _ _ _ _ _ Ga Gb E) as (s & Bs & G1 & G2 & S1 & S2 & _ & _ & A1 & A2).
  unfold allclose_all, l_size. rewrite S1, S2, orb_diag. destruct (Nat.eqb_spec (size s) 0) as [Z0|Z0].
  { intros s' Bs'. now rewrite <- (broadcasts_fun _ _ _ _ _ Bs Bs'). }
  assert (I1 : inside r1 (length (t_data ta))). { intros ix V. rewrite S1 in V. destruct (A1 ix V) as [V' ->]. now apply Ia. }
  assert (I2 : inside r2 (length (t_data tb))). { intros ix V. rewrite S2 in V. destruct (A2 ix V) as [V' ->]. now apply Ib. }
  rewrite (K r1 r2 s G1 G2 S1 S2 I1 I2). exists s. split; [exact Bs|]. split; [exact Z0|].
  unfold sum2. rewrite total_andb, Forall_map, Forall_forall. unfold vals2, pairs. split.
  - intros H jx V. destruct (A1 jx V) as [V1 E1]. destruct (A2 jx V) as [V2 E2]. destruct (elem_inside (t_data ta) (t_layout ta) _ Ia V1) as (x & X). destruct (elem_inside (t_data tb) (t_layout tb) _ Ib V2) as (y & Y).
    exists x, y. split; [exact X|]. split; [exact Y|]. apply (H (x, y)). apply in_flat_map. exists (addr r1 jx, addr r2 jx). split; [apply in_map_iff; exists jx; split; [auto|now apply in_row_major]|].
    cbn [fst snd]. rewrite E1, E2. unfold elem in X, Y. rewrite X, Y. now left.
  - intros H [x y] Hp. apply in_flat_map in Hp as (p & Hp & Hq). apply in_map_iff in Hp as (jx & <- & V). apply in_row_major in V. cbn [fst snd] in *. destruct (H jx V) as (x' & y' & X & Y & C).
    destruct (A1 jx V) as [_ E1]. destruct (A2 jx V) as [_ E2]. rewrite E1, E2 in Hq. unfold at_, elem, t_shape in X, Y. rewrite X, Y in Hq. destruct Hq as [Hq|[]]. injection Hq as <- <-. exact C. Qed.

Lemma l_allclose : forall (A B : Type) o (close : A -> B -> bool) (ta : tensor A) (tb : tensor B), tensor_ok ta -> tensor_ok tb ->
  match allclose o close ta tb with
  | Ok r => exists s, broadcasts o (t_shape ta) (t_shape tb) s /\ size s <> 0%nat /\
      (r = true <-> forall jx, valid s jx -> exists x y, at_ ta (source_index o (t_shape ta) jx) = Some x /\ at_ tb (source_index o (t_shape tb) jx) = Some y /\ close x y = true)
  | Err _ => forall s, broadcasts o (t_shape ta) (t_shape tb) s -> size s = 0%nat
  | Panic => False
  end.
Proof. intros A B o close ta tb. apply allclose_gen. intros la lb sh Ga Gb Sa Sb Ia Ib. apply (reduce_all_binary_ok true andb andb_monoid (fun p => close (fst p) (snd p)) _ (fun s x => eq_refl) (fun acc => acc)); auto. Qed.
Lemma l_allclose_rayon : forall (A B : Type) chunk t ti o (close : A -> B -> bool) (ta : tensor A) (tb : tensor B), chunk <> 0%nat -> tensor_ok ta -> tensor_ok tb ->
  allclose_rayon chunk t ti o close ta tb = allclose o close ta tb.
Proof. intros A B chunk t ti o close ta tb Hc Ha Hb. apply tensor_ok_good in Ha as [Ga Ia]. apply tensor_ok_good in Hb as [Gb Ib].
  unfold allclose_rayon, allclose. destruct (broadcast_layout (t_layout ta) (t_layout tb) o) as [[r1 r2]|er|] eqn:E; cbn [bind fst snd]; auto.
  destruct (broadcast_good _ _ _ _ _ Ga Gb E) as (s & Bs & G1 & G2 & S1 & S2 & _ & _ & A1 & A2).
  assert (I1 : inside r1 (length (t_data ta))). { intros ix V. rewrite S1 in V. destruct (A1 ix V) as [V' ->]. now apply Ia. }
  assert (I2 : inside r2 (length (t_data tb))). { intros ix V. rewrite S2 in V. destruct (A2 ix V) as [V' ->]. now apply Ib. }
  unfold allclose_all. destruct (_ || _); auto.
  rewrite (reduce_all_binary_ok true andb andb_monoid (fun p => close (fst p) (snd p)) _ (fun s x => eq_refl) (fun acc => acc) _ _ _ _ s) by auto.
  rewrite (reduce_all_binary_rayon_ok true andb andb_monoid (fun p => close (fst p) (snd p)) _ (fun s x => eq_refl) (fun acc => acc) _ _ _ _ s) by auto. reflexivity. Qed.
(** an error is only returned when the shapes do not broadcast or the result is empty, and then it always is *)
Lemma l_allclose_empty : forall (A B : Type) o (close : A -> B -> bool) (ta : tensor A) (tb : tensor B) s, tensor_ok ta -> tensor_ok tb ->
  broadcasts o (t_shape ta) (t_shape tb) s -> size s = 0%nat -> exists e, allclose o close ta tb = Err e.
Proof. intros A B o close ta tb s Ha Hb Bs Z0. pose proof (l_allclose A B o close ta tb Ha Hb) as H. destruct (allclose o close ta tb) as [r|er|]; [|eauto|contradiction].
  destruct H as (s' & Bs' & Z' & _). exfalso. apply Z'. now rewrite <- (broadcasts_fun _ _ _ _ _ Bs Bs'). Qed.

(** ** isclose *)
Definition f64_finite (x : f64) : Prop := match x with S754_zero _ | S754_finite _ _ _ => True | _ => False end.
Lemma l_isclose_infinite_refuted : forall (s : bool) (rtol atol a : f64) equal_nan, f64_finite a -> f64_finite atol -> (exists m e, rtol = S754_finite false m e) ->
  isclose_f64 rtol atol equal_nan a (S754_infinity s) = true /\ isclose_f64 rtol atol equal_nan (S754_infinity s) (S754_infinity s) = false.
Proof. intros s rtol atol a en Fa Ft (m & e & ->). unfold isclose_f64, within_tolerance, f64_add, f64_mul, f64_sub. split.
  - destruct a; try contradiction; destruct atol; try contradiction; destruct s; reflexivity.
  - destruct atol; try contradiction; destruct s, en; reflexivity. Qed.
Lemma signed_in checks w z : - 2 ^ (w - 1) <= z < 2 ^ (w - 1) -> signed checks w z = Ok z.
Proof. intro H. unfold signed. replace (_ <=? z) with true by lia. replace (z <? _) with true by lia. reflexivity. Qed.
Lemma l_isclose_signed : forall checks w rtol atol a b, 0 < w -> Z.abs (a - b) < 2 ^ (w - 1) -> Z.abs b < 2 ^ (w - 1) ->
  isclose_signed checks w rtol atol a b = Ok (SFleb (f64_of_Z (Z.abs (a - b))) (f64_add atol (f64_mul rtol (f64_of_Z (Z.abs b))))).
Proof. intros checks w rtol atol a b Hw H1 H2. unfold isclose_signed, signed_abs_diff, signed_abs. set (m := 2 ^ (w - 1)) in *.
  replace (if b <=? a then a - b else b - a) with (Z.abs (a - b)) by (destruct (b <=? a) eqn:E; lia).
  rewrite !signed_in by (fold m; lia). reflexivity. Qed.
Lemma l_isclose_signed_refuted : forall w a b, 0 < w -> - 2 ^ (w - 1) <= a < 2 ^ (w - 1) -> - 2 ^ (w - 1) <= b < 2 ^ (w - 1) -> 2 ^ (w - 1) <= Z.abs (a - b) ->
  (forall rtol atol, isclose_signed true w rtol atol a b = Panic) /\ signed_abs_diff false w a b = Ok (Z.abs (a - b) - 2 ^ w) /\ Z.abs (a - b) - 2 ^ w < 0.
Proof. intros w a b Hw Ha Hb H. assert (P : 2 ^ w = 2 * 2 ^ (w - 1)). { replace w with (Z.succ (w - 1)) at 1 by lia. apply Z.pow_succ_r. lia. }
  set (m := 2 ^ (w - 1)) in *. assert (E : (if b <=? a then a - b else b - a) = Z.abs (a - b)) by (destruct (b <=? a) eqn:E; lia).
  unfold isclose_signed, signed_abs_diff. rewrite E. unfold signed. fold m. replace (_ <=? Z.abs (a - b)) with true by lia. replace (Z.abs (a - b) <? m) with false by lia. cbn [andb]. split; [reflexivity|]. split; [|lia].
  f_equal. rewrite P. rewrite <- (Z.mod_unique_pos (Z.abs (a - b) + m) (2 * m) 1 (Z.abs (a - b) - m)); lia. Qed.
