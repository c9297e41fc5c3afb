(** Completeness of the zero-copy reshape: when it gives up, no strides would do. *)
From Verif Require Import Base Spec P_Index P_List M_Layout P_Layout P_Bounds P_Contig P_Strides M_Reshape P_Reshape.
Local Open Scope Z_scope.

Lemma comp_swap X Y : comp true X Y = comp false Y X. Proof. reflexivity. Qed.
Lemma A_rev ps : A false (rev ps) = A true ps.
Proof. induction ps as [|[d t] ps IH]; [reflexivity|]. cbn [rev]. rewrite A_app, IH, (A_cons false), (A_cons true), A_nil, comp_0_r. reflexivity. Qed.
Lemma A_length f ps : length (A f ps) = size (dims ps).
Proof. unfold A. rewrite map_length. destruct f; [apply length_col_major|apply length_row_major]. Qed.
Lemma nth_comp X Y : forall i j, (i < length X)%nat -> (j < length Y)%nat -> nth (i * length Y + j) (comp false X Y) 0 = nth i X 0 + nth j Y 0.
Proof.
  unfold comp. induction X as [|x X IH]; intros i j Hi Hj; [cbn in Hi; lia|]. cbn [flat_map]. destruct i as [|i].
  - cbn [Nat.mul Nat.add nth]. rewrite app_nth1 by (now rewrite map_length). rewrite (nth_indep _ 0 (x + 0)) by (now rewrite map_length). now rewrite map_nth.
  - rewrite app_nth2 by (rewrite map_length; lia). rewrite map_length. replace (S i * length Y + j - length Y)%nat with (i * length Y + j)%nat by lia. cbn [nth]. apply IH; [cbn in Hi; lia|exact Hj].
Qed.
Lemma comp_length X Y : length (comp false X Y) = (length X * length Y)%nat.
Proof. unfold comp. induction X as [|x X IH]; [reflexivity|]. cbn [flat_map]. rewrite app_length, map_length, IH. cbn. lia. Qed.
Lemma nth_A_true p q a b : (a < size (dims q))%nat -> (b < size (dims p))%nat -> nth (a * size (dims p) + b) (A true (p ++ q)) 0 = nth a (A true q) 0 + nth b (A true p) 0.
Proof. intros Ha Hb. rewrite A_app, comp_swap. rewrite <- (A_length true p) in *. rewrite <- (A_length true q) in *. now apply nth_comp. Qed.
Lemma A_head f ps : size (dims ps) <> 0%nat -> nth 0 (A f ps) 0 = 0.
Proof.
  intros H. assert (X : forall ps, size (dims ps) <> 0%nat -> nth 0 (A true ps) 0 = 0).
  { clear. induction ps as [|[d t] ps IH]; intros H; [reflexivity|]. cbn [map fst] in H. rewrite size_cons in H. change ((d, t) :: ps) with ([(d, t)] ++ ps).
    pose proof (nth_A_true [(d, t)] ps 0 0) as E. cbn [Nat.mul Nat.add] in E. rewrite E; [|lia|cbn; lia]. rewrite IH by lia. destruct d as [|d]; [lia|]. cbn. lia. }
  destruct f; [now apply X|]. rewrite <- (rev_involutive ps), A_rev. apply X. now rewrite map_rev, size_rev.
Qed.
Lemma nth_prog n t k : (k < n)%nat -> nth k (prog n t) 0 = Z.of_nat k * t.
Proof. intros H. unfold prog. rewrite (nth_indep _ 0 ((fun k => Z.of_nat k * t) 0%nat)) by (now rewrite map_length, seq_length). rewrite (map_nth (fun k => Z.of_nat k * t)). now rewrite seq_nth. Qed.
Lemma nth_A_axis d t q a : (a < d)%nat -> size (dims q) <> 0%nat -> nth a (A true ((d, t) :: q)) 0 = Z.of_nat a * t.
Proof.
  intros Ha Hq. pose proof (nth_A_true [(d, t)] q 0 a) as E. cbn [Nat.mul Nat.add app] in E. rewrite E; [|lia|cbn; lia]. rewrite A_head by exact Hq.
  rewrite A_cons, A_nil, comp_0_r, nth_prog by exact Ha. lia.
Qed.

(** ** One group, fast axis first *)
Lemma comb_snoc o d t : o <> [] -> combinable true o = true -> t = Z.of_nat (size (dims o)) * snd (hd (0%nat, 0) o) -> combinable true (o ++ [(d, t)]) = true.
Proof.
  induction o as [|[d0 t0] o IH]; intros Hne Hc Ht; [congruence|]. destruct o as [|[d1 t1] o].
  - cbn in *. rewrite Ht. rewrite Nat.mul_1_r. now rewrite Z.eqb_refl.
  - change (((d0, t0) :: (d1, t1) :: o) ++ [(d, t)]) with ((d0, t0) :: (d1, t1) :: (o ++ [(d, t)])). cbn [combinable] in Hc |- *. apply andb_true_iff in Hc. destruct Hc as [H1 H2]. rewrite H1. cbn [andb].
    apply (IH ltac:(discriminate) H2). apply Z.eqb_eq in H1. cbn [hd snd map fst] in *. rewrite size_cons, Nat2Z.inj_mul in Ht. rewrite Ht, H1. ring.
Qed.
Lemma cut_at np x : forall acc, (acc <= x < acc * size (dims np))%nat -> exists n1 e u n2, np = n1 ++ (e, u) :: n2 /\ (acc * size (dims n1) <= x < acc * size (dims n1) * e)%nat.
Proof.
  induction np as [|[e u] np IH]; intros acc H; [cbn in H; lia|]. cbn [map fst] in H. rewrite size_cons in H. destruct (Nat.lt_ge_cases x (acc * e)) as [Hx|Hx].
  - exists [], e, u, np. cbn [map]. change (size []) with 1%nat. split; [reflexivity|]. rewrite Nat.mul_1_r. lia.
  - destruct (IH (acc * e)%nat) as (n1 & e' & u' & n2 & E & B); [rewrite <- Nat.mul_assoc; lia|]. exists ((e, u) :: n1), e', u', n2. split; [now rewrite E|]. cbn [map fst]. rewrite size_cons, Nat.mul_assoc. exact B.
Qed.
Lemma le_mul d y : y <> 0%nat -> (d <= d * y)%nat.
Proof. destruct y as [|y]; [congruence|]. intros _. rewrite Nat.mul_succ_r. lia. Qed.
Lemma mul_nz d y : (d * y)%nat <> 0%nat -> d <> 0%nat /\ y <> 0%nat.
Proof. destruct d, y; cbn; try rewrite Nat.mul_0_r; lia. Qed.
Definition apart (np og : list (nat * Z)) : Prop :=
  forall n1 n2 o1 o2, np = n1 ++ n2 -> og = o1 ++ o2 -> o1 <> [] -> o2 <> [] -> size (dims n1) <> size (dims o1).
Lemma size_pos_split {X} (g : X -> nat) p q : size (map g (p ++ q)) <> 0%nat -> size (map g p) <> 0%nat /\ size (map g q) <> 0%nat.
Proof. rewrite map_app, size_app. lia. Qed.
Lemma group_needed og np : (forall p, In p og -> (2 <= fst p)%nat) -> size (dims np) <> 0%nat -> size (dims og) <> 0%nat -> A true og = A true np -> apart np og -> combinable true og = true.
Proof.
  intros Hd Hnp Hog Ha Hap.
  assert (Hsz : size (dims og) = size (dims np)) by (rewrite <- (A_length true og), <- (A_length true np), Ha; reflexivity).
  assert (X : forall o1 o2, og = o1 ++ o2 -> o1 <> [] -> combinable true o1 = true).
  { intros o1. induction o1 as [|[d t] o1 IH] using rev_ind; intros o2 E Hne; [congruence|]. assert (Hcase : o1 = [] \/ o1 <> []) by (destruct o1; [now left|right; discriminate]). destruct Hcase as [->|Hne1]; [reflexivity|].
    rewrite <- app_assoc in E. cbn [app] in E. specialize (IH _ E Hne1).
    set (x := size (dims o1)). set (t0 := snd (hd (0%nat, 0) o1)).
    assert (El : A true o1 = prog x t0) by (destruct o1 as [|[d0 t'] o1]; [congruence|]; exact (combinable_f _ _ _ IH)).
    apply comb_snoc; [exact Hne1|exact IH|]. fold x t0.
    assert (P1 : x <> 0%nat /\ size (dims ((d, t) :: o2)) <> 0%nat) by (apply (size_pos_split fst); rewrite <- E; exact Hog). destruct P1 as [P1 P2]. cbn [map fst] in P2. rewrite size_cons in P2. apply mul_nz in P2. destruct P2 as [P2' P2]. pose proof (le_mul d _ P2) as P3.
    assert (Hd2 : (2 <= d)%nat) by (apply (Hd (d, t)); rewrite E; apply in_or_app; right; now left).
    assert (Ex : nth x (A true og) 0 = t).
    { rewrite E. pose proof (nth_A_true o1 ((d, t) :: o2) 1 0) as N. fold x in N. replace (1 * x + 0)%nat with x in N by lia. rewrite N; [|cbn [map fst]; rewrite size_cons; lia|lia].
      rewrite nth_A_axis by lia. rewrite A_head by exact P1. lia. }
    assert (Elow : forall b, (b < x)%nat -> nth b (A true og) 0 = Z.of_nat b * t0).
    { intros b Hb. rewrite E. pose proof (nth_A_true o1 ((d, t) :: o2) 0 b) as N. cbn [Nat.mul Nat.add] in N. rewrite N; [|cbn [map fst]; rewrite size_cons; lia|exact Hb].
      rewrite A_head by (cbn [map fst]; rewrite size_cons; lia). rewrite El, nth_prog by exact Hb. lia. }
    destruct (cut_at np x 1) as (n1 & e & u & n2 & En & B).
    { rewrite Nat.mul_1_l, <- Hsz, E, map_app, size_app. cbn [map fst]. rewrite size_cons. fold x. pose proof (Nat.mul_le_mono_l 2 (d * size (dims o2)) x ltac:(lia)). lia. }
    rewrite Nat.mul_1_l in B. set (q := size (dims n1)) in *.
    assert (Q1 : q <> 0%nat /\ size (dims ((e, u) :: n2)) <> 0%nat) by (apply (size_pos_split fst); rewrite <- En; exact Hnp). destruct Q1 as [Q1 Q2]. cbn [map fst] in Q2. rewrite size_cons in Q2. apply mul_nz in Q2. destruct Q2 as [Q2' Q2]. pose proof (le_mul e _ Q2) as Q3.
    assert (Qx : q <> x) by (apply (Hap n1 ((e, u) :: n2) o1 ((d, t) :: o2)); [exact En|exact E|exact Hne1|discriminate]).
    assert (He : (2 <= e)%nat) by nia.
    assert (Eu : u = Z.of_nat q * t0).
    { rewrite <- (Elow q) by lia. rewrite Ha, En. pose proof (nth_A_true n1 ((e, u) :: n2) 1 0) as N. fold q in N. replace (1 * q + 0)%nat with q in N by lia. rewrite N; [|cbn [map fst]; rewrite size_cons; lia|lia].
      rewrite nth_A_axis by lia. rewrite A_head by exact Q1. lia. }
    pose proof (Nat.div_mod x q Q1) as Dx. pose proof (Nat.mod_upper_bound x q Q1) as Dm. remember (x / q)%nat as a eqn:Ea. remember (x mod q)%nat as b eqn:Eb. clear Ea Eb.
    assert (Hae : (a < e)%nat) by nia.
    assert (Eb : nth b (A true n1) 0 = Z.of_nat b * t0).
    { rewrite <- (Elow b) by lia. rewrite Ha, En. pose proof (nth_A_true n1 ((e, u) :: n2) 0 b) as N. cbn [Nat.mul Nat.add] in N. fold q in N. rewrite N; [|cbn [map fst]; rewrite size_cons; lia|lia].
      rewrite A_head by (cbn [map fst]; rewrite size_cons; lia). lia. }
    rewrite <- Ex, Ha, En. replace x with (a * q + b)%nat at 1 by lia. pose proof (nth_A_true n1 ((e, u) :: n2) a b) as N. fold q in N. rewrite N; [|cbn [map fst]; rewrite size_cons; lia|lia].
    rewrite nth_A_axis by lia. rewrite Eb, Eu. rewrite Dx. rewrite Nat2Z.inj_add, Nat2Z.inj_mul. ring. }
  destruct og as [|p og]; [reflexivity|]. apply (X _ []); [now rewrite app_nil_r|discriminate].
Qed.
Lemma comb_rev_snoc o d t d' t' : combinable false ((o ++ [(d', t')]) ++ [(d, t)]) = combinable false (o ++ [(d', t')]) && (t' =? Z.of_nat d * t).
Proof.
  induction o as [|[a b] o IH].
  - cbn. now rewrite andb_true_r.
  - destruct o as [|[a' b'] o].
    + cbn. now rewrite !andb_true_r.
    + cbn [app combinable] in *. rewrite IH. now rewrite andb_assoc.
Qed.
Lemma comb_rev og : combinable false (rev og) = combinable true og.
Proof.
  induction og as [|[d t] og IH]; [reflexivity|]. destruct og as [|[d' t'] og]; [reflexivity|]. cbn [rev] in *. rewrite comb_rev_snoc, IH. cbn [combinable]. apply andb_comm.
Qed.
Lemma apart_rev np og : size (dims np) <> 0%nat -> size (dims og) = size (dims np) -> apart np og -> apart (rev np) (rev og).
Proof.
  intros Hn Hs H n1 n2 o1 o2 En Eo H1 H2 X. apply (f_equal (@rev _)) in En, Eo. rewrite rev_involutive, rev_app_distr in En, Eo.
  apply (H (rev n2) (rev n1) (rev o2) (rev o1) En Eo).
  - intros Y. apply H2. apply (f_equal (@rev _)) in Y. now rewrite rev_involutive in Y.
  - intros Y. apply H1. apply (f_equal (@rev _)) in Y. now rewrite rev_involutive in Y.
  - rewrite !map_rev, !size_rev. subst np og. rewrite !map_app, !size_app, !map_rev, !size_rev in Hs. rewrite !map_app, !size_app, !map_rev, !size_rev in Hn. rewrite X in *. apply mul_nz in Hn. symmetry. apply (Nat.mul_cancel_r _ _ (size (dims o1))); [tauto|exact Hs].
Qed.
Lemma group_needed_any f og np : (forall p, In p og -> (2 <= fst p)%nat) -> size (dims np) <> 0%nat -> size (dims og) <> 0%nat -> A f og = A f np -> apart np og -> combinable f og = true.
Proof.
  intros Hd Hn Ho Ha Hap. destruct f; [now apply (group_needed og np)|].
  assert (Hs : size (dims og) = size (dims np)) by (rewrite <- (A_length false og), <- (A_length false np), Ha; reflexivity).
  rewrite <- (rev_involutive og), comb_rev. apply (group_needed (rev og) (rev np)).
  - intros p Hp. apply Hd. now apply in_rev.
  - now rewrite map_rev, size_rev.
  - now rewrite map_rev, size_rev.
  - rewrite <- !A_rev, !rev_involutive. exact Ha.
  - now apply apart_rev.
Qed.

(** ** The groups the code forms *)
Definition dapart (ng : list nat) (og : list (nat * Z)) : Prop :=
  forall n1 n2 o1 o2, ng = n1 ++ n2 -> og = o1 ++ o2 -> o1 <> [] -> o2 <> [] -> size n1 <> size (dims o1).
Lemma snoc_cases {X} (l : list X) x a b : l ++ [x] = a ++ b -> (exists b', l = a ++ b' /\ b = b' ++ [x]) \/ (a = l ++ [x] /\ b = []).
Proof.
  destruct b as [|y b] using rev_ind; intros E; [right; rewrite app_nil_r in E; auto|]. rewrite app_assoc in E. apply app_inj_tail in E. destruct E as [E ->]. left. now exists b.
Qed.
Lemma match_group_min : forall fuel np op ng nr og orr, np = size ng -> op = size (dims og) -> (length nr + length orr <= fuel)%nat ->
  size (ng ++ nr) <> 0%nat -> size (ng ++ nr) = size (dims (og ++ orr)) ->
  dapart ng og -> (forall o1 o2, og = o1 ++ o2 -> o1 <> [] -> o2 <> [] -> (size (dims o1) < np)%nat) -> (forall n1 n2, ng = n1 ++ n2 -> n2 <> [] -> (size n1 < op)%nat) ->
  exists ng' nr' og' orr', match_group fuel np op ng nr og orr = Some (ng', nr', og', orr') /\ dapart ng' og'.
Proof.
  induction fuel as [|fuel IH]; intros np op ng nr og orr En Eo Hf Hz Hs Ha Hc Hd; cbn [match_group]; (destruct (Nat.eqb_spec np op) as [E|E]; [now exists ng, nr, og, orr|]).
  - exfalso. destruct nr; [|cbn in Hf; lia]. destruct orr; [|cbn in Hf; lia]. rewrite !app_nil_r in Hs. congruence.
  - rewrite size_app in Hz, Hs. rewrite map_app, size_app in Hs. pose proof Hz as Hz'. rewrite Hs in Hz'. apply mul_nz in Hz, Hz'. destruct Hz as [Zn Zr], Hz' as [Zo Zq].
    destruct (Nat.ltb_spec np op) as [Hlt|Hge].
    + destruct nr as [|d nr]; [exfalso; change (size []) with 1%nat in Hs; pose proof (le_mul (size (dims og)) _ Zq); lia|]. rewrite size_cons in Hs, Zr. apply mul_nz in Zr. destruct Zr as [Zd Zr].
      assert (Gn : (size ng <= size ng * d)%nat) by (now apply le_mul). assert (Es : size (ng ++ [d]) = (size ng * d)%nat) by (rewrite size_app, size_cons; change (size []) with 1%nat; now rewrite Nat.mul_1_r).
      apply IH.
      * now rewrite Es, En.
      * exact Eo.
      * cbn in Hf. lia.
      * rewrite size_app, Es. pose proof (le_mul (size ng * d) _ Zr). lia.
      * rewrite size_app, Es, map_app, size_app, <- Nat.mul_assoc. exact Hs.
      * intros n1 n2 o1 o2 N1 O1 O2 O3. apply snoc_cases in N1. destruct N1 as [(b' & B1 & B2)|[B1 B2]]; [now apply (Ha n1 b' o1 o2)|]. subst n1. specialize (Hc o1 o2 O1 O2 O3). rewrite Es. lia.
      * intros o1 o2 O1 O2 O3. specialize (Hc o1 o2 O1 O2 O3). subst np. lia.
      * intros n1 n2 N1 N2. apply snoc_cases in N1. destruct N1 as [(b' & B1 & B2)|[B1 B2]]; [|congruence]. destruct b' as [|y b']; [rewrite app_nil_r in B1; subst n1; lia|]. apply (Hd n1 (y :: b') B1). discriminate.
    + destruct orr as [|[d t] orr]; [exfalso; change (size (dims [])) with 1%nat in Hs; pose proof (le_mul (size ng) _ Zr); lia|]. cbn [map fst] in Hs, Zq. rewrite size_cons in Hs, Zq. apply mul_nz in Zq. destruct Zq as [Zd Zq].
      assert (Go : (size (dims og) <= size (dims og) * d)%nat) by (now apply le_mul).
      assert (Es : size (dims (og ++ [(d, t)])) = (size (dims og) * d)%nat) by (rewrite map_app, size_app; cbn [map fst]; rewrite size_cons; change (size []) with 1%nat; now rewrite Nat.mul_1_r).
      apply IH.
      * exact En.
      * now rewrite Es, Eo.
      * cbn in Hf. lia.
      * rewrite size_app. pose proof (le_mul (size ng) _ Zr). lia.
      * rewrite size_app, map_app, size_app, Es, <- Nat.mul_assoc. exact Hs.
      * intros n1 n2 o1 o2 N1 O1 O2 O3. apply snoc_cases in O1. destruct O1 as [(b' & B1 & B2)|[B1 B2]]; [|congruence]. destruct b' as [|y b'].
        -- rewrite app_nil_r in B1. subst o1. destruct n2 as [|z n2]; [rewrite app_nil_r in N1; subst n1; lia|]. specialize (Hd n1 (z :: n2) N1 ltac:(discriminate)). lia.
        -- apply (Ha n1 n2 o1 (y :: b')); [exact N1|exact B1|exact O2|discriminate].
      * intros o1 o2 O1 O2 O3. apply snoc_cases in O1. destruct O1 as [(b' & B1 & B2)|[B1 B2]]; [|congruence]. destruct b' as [|y b']; [rewrite app_nil_r in B1; subst o1; lia|]. apply (Hc o1 (y :: b')); [exact B1|exact O2|discriminate].
      * intros n1 n2 N1 N2. specialize (Hd n1 n2 N1 N2). subst op. lia.
Qed.
Lemma comp_cancel f X Y X' Y' : length X = length X' -> length Y = length Y' -> X <> [] -> Y <> [] -> nth 0 X 0 = 0 -> nth 0 X' 0 = 0 -> nth 0 Y 0 = 0 -> nth 0 Y' 0 = 0 ->
  comp f X Y = comp f X' Y' -> X = X' /\ Y = Y'.
Proof.
  assert (G : forall X Y X' Y', length X = length X' -> length Y = length Y' -> X <> [] -> Y <> [] -> nth 0 X 0 = 0 -> nth 0 X' 0 = 0 -> nth 0 Y 0 = 0 -> nth 0 Y' 0 = 0 ->
    comp false X Y = comp false X' Y' -> X = X' /\ Y = Y').
  { clear. intros X Y X' Y' Lx Ly Nx Ny HX HX' HY HY' E. assert (0 < length X)%nat by (destruct X; [congruence|cbn; lia]). assert (0 < length Y)%nat by (destruct Y; [congruence|cbn; lia]). split.
    - apply (nth_ext _ _ 0 0 Lx). intros i Hi. pose proof (nth_comp X Y i 0 Hi ltac:(lia)) as N. pose proof (nth_comp X' Y' i 0 ltac:(lia) ltac:(lia)) as N'. rewrite E, Ly, N', HY, HY' in N. lia.
    - apply (nth_ext _ _ 0 0 Ly). intros j Hj. pose proof (nth_comp X Y 0 j ltac:(lia) Hj) as N. pose proof (nth_comp X' Y' 0 j ltac:(lia) ltac:(lia)) as N'. rewrite E, Ly, N', HX, HX' in N. lia. }
  destruct f; [|apply G]. rewrite !comp_swap. intros. destruct (G Y X Y' X'); auto.
Qed.
Lemma groups_needed : forall fuel f new ns old acc, (forall p, In p old -> (2 <= fst p)%nat) -> size new <> 0%nat -> length ns = length new -> A f (combine new ns) = A f old ->
  reshape_groups fuel f new old acc <> None.
Proof.
  induction fuel as [|fuel IH]; intros f new ns old acc Hd Hz Hl HA; [discriminate|]. cbn [reshape_groups]. destruct new as [|d nr]; [discriminate|]. destruct old as [|[od ot] orr]; [discriminate|].
  assert (Hs : size (d :: nr) = size (dims ((od, ot) :: orr))).
  { rewrite <- (A_length f ((od, ot) :: orr)), <- HA, A_length, combine_split_r by (symmetry; exact Hl) || (exact Hl). reflexivity. }
  assert (Hod : (2 <= od)%nat) by (apply (Hd (od, ot)); now left).
  destruct (match_group_min (length nr + length orr) d od [d] nr [(od, ot)] orr) as (ng & nr' & og & orr' & M & Hap).
  - cbn. lia.
  - cbn. lia.
  - lia.
  - exact Hz.
  - exact Hs.
  - intros n1 n2 o1 o2 _ O1 O2 O3. destruct o1 as [|p o1]; [congruence|]. destruct o1; [|discriminate]. destruct o2; [congruence|discriminate].
  - intros o1 o2 O1 O2 O3. destruct o1 as [|p o1]; [congruence|]. destruct o1; [|discriminate]. destruct o2; [congruence|discriminate].
  - intros n1 n2 N1 N2. destruct n1 as [|p n1]; [cbn; lia|]. destruct n1; [|discriminate]. destruct n2; [congruence|discriminate].
  - rewrite M. apply match_group_ok in M; [|cbn; lia|cbn; lia]. destruct M as (x & y & -> & -> & -> & -> & E).
    remember ([d] ++ x) as ng eqn:Eng. remember ([(od, ot)] ++ y) as og eqn:Eog.
    assert (En : d :: x ++ nr' = ng ++ nr') by (now rewrite Eng). assert (Eo : (od, ot) :: y ++ orr' = og ++ orr') by (now rewrite Eog).
    rewrite En, Eo in *. clear En Eo.
    set (na := firstn (length ng) ns). set (nb := skipn (length ng) ns).
    assert (Ln : length na = length ng) by (unfold na; rewrite firstn_length, Hl, app_length; lia).
    assert (Lb : length nb = length nr') by (unfold nb; rewrite skipn_length, Hl, app_length; lia).
    rewrite <- (firstn_skipn (length ng) ns) in HA. fold na nb in HA. rewrite combine_app in HA by (symmetry; exact Ln) || (exact Ln). rewrite !A_app in HA.
    rewrite size_app in Hz. rewrite size_app, map_app, size_app in Hs.
    assert (Dn : dims (combine ng na) = ng) by (apply combine_split_r; (exact Ln || (symmetry; exact Ln))).
    assert (Db : dims (combine nr' nb) = nr') by (apply combine_split_r; (exact Lb || (symmetry; exact Lb))).
    apply mul_nz in Hz. destruct Hz as [Z1 Z2]. assert (Z3 : size (dims og) <> 0%nat) by lia. assert (Es : size nr' = size (dims orr')) by (apply (Nat.mul_cancel_l _ _ (size ng)); [exact Z1|]; rewrite Hs, E; reflexivity).
    assert (Z4 : size (dims orr') <> 0%nat) by lia.
    destruct (comp_cancel f (A f (combine ng na)) (A f (combine nr' nb)) (A f og) (A f orr')) as [C1 C2].
    + rewrite !A_length, Dn. exact E.
    + rewrite !A_length, Db. exact Es.
    + intros X. apply (f_equal (@length Z)) in X. rewrite A_length, Dn in X. cbn in X. lia.
    + intros X. apply (f_equal (@length Z)) in X. rewrite A_length, Db in X. cbn in X. lia.
    + apply A_head. now rewrite Dn.
    + now apply A_head.
    + apply A_head. now rewrite Db.
    + now apply A_head.
    + exact HA.
    + rewrite (group_needed_any f og (combine ng na)).
      * apply (IH f nr' nb orr'); [intros p Hp; apply Hd; apply in_or_app; now right|exact Z2|exact Lb|exact C2].
      * intros p Hp. apply Hd. apply in_or_app. now left.
      * now rewrite Dn.
      * exact Z3.
      * now symmetry.
      * intros n1 n2 o1 o2 N1 O1 O2 O3. apply (Hap (dims n1) (dims n2) o1 o2); [|exact O1|exact O2|exact O3]. rewrite <- map_app, <- N1. now rewrite Dn.
Qed.
Lemma reshape_complete o l shape l' : wf l -> layout_reshapeable l shape o = Ok None -> length (l_stride l') = length (l_shape l') -> l_shape l' = shape -> addrs o l' <> addrs o l.
Proof.
  intros W H Hl Hs E. unfold layout_reshapeable, quick_check in H. destruct (Nat.eqb_spec (size (l_shape l)) (size shape)) as [Es|]; [|discriminate]. cbn [check bind] in H.
  destruct (Nat.eqb_spec (size (l_shape l)) 0) as [|H0]; [cbn [orb] in H; destruct (layout_new _ _ _); discriminate|]. destruct (Nat.eqb_spec (size (l_shape l)) 1) as [|H1]; [cbn [orb] in H; destruct (layout_new _ _ _); discriminate|]. cbn [orb] in H.
  assert (X : attempt_nocopy_reshape (l_shape l) (l_stride l) shape (order_eqb o ColMajor) = None).
  { destruct (list_eq_dec Nat.eq_dec shape (l_shape l)); [discriminate|]. destruct o; cbn [bind] in H.
    - destruct (c_contig l); [discriminate|]. cbn [bind] in H. destruct (attempt_nocopy_reshape _ _ _ _); [discriminate|reflexivity].
    - destruct (f_contig l); [discriminate|]. cbn [bind] in H. destruct (attempt_nocopy_reshape _ _ _ _); [discriminate|reflexivity]. }
  clear H. unfold attempt_nocopy_reshape in X. set (old := filter _ _) in X.
  destruct (reshape_groups (length shape) (order_eqb o ColMajor) shape old []) as [[acc rest]|] eqn:G; [discriminate|]. revert G. apply (groups_needed _ _ _ (l_stride l')).
  - intros [d t] Hp. unfold old in Hp. apply filter_In in Hp. destruct Hp as [Hp Hne]. apply in_combine_l in Hp. cbn [fst] in *.
    assert (d <> 0%nat); [|lia]. intros ->. apply H0. clear -Hp. induction (l_shape l) as [|a s IH]; [easy|]. rewrite size_cons. destruct Hp as [->|Hp]; [reflexivity|]. rewrite IH by exact Hp. lia.
  - lia.
  - now rewrite Hl, Hs.
  - unfold old. rewrite A_filter. assert (El : addrs o l' = map (Z.add (l_offset l')) (A (order_eqb o ColMajor) (combine (l_shape l') (l_stride l')))).
    { unfold addrs, A. rewrite combine_split_r, combine_snd by auto. rewrite map_map. destruct o; reflexivity. }
    rewrite El, (addrs_A o l W), Hs in E.
    assert (N1 : nth 0 (A (order_eqb o ColMajor) (combine shape (l_stride l'))) 0 = 0) by (apply A_head; rewrite combine_split_r by (rewrite <- Hs; auto); lia).
    assert (N2 : nth 0 (A (order_eqb o ColMajor) (combine (l_shape l) (l_stride l))) 0 = 0) by (apply A_head; rewrite combine_split_r by (symmetry; apply W); lia).
    assert (L1 : length (A (order_eqb o ColMajor) (combine shape (l_stride l'))) <> 0%nat) by (rewrite A_length, combine_split_r by (rewrite <- Hs; auto); lia).
    assert (L2 : length (A (order_eqb o ColMajor) (combine (l_shape l) (l_stride l))) <> 0%nat) by (rewrite A_length, combine_split_r by (symmetry; apply W); lia).
    remember (A (order_eqb o ColMajor) (combine shape (l_stride l'))) as P. remember (A (order_eqb o ColMajor) (combine (l_shape l) (l_stride l))) as Q. clear HeqP HeqQ.
    destruct P as [|p P]; [easy|]. destruct Q as [|q Q]; [easy|]. cbn in N1, N2. subst p q. cbn [map] in E. injection E as E1 E2. f_equal. rewrite !Z.add_0_r in E1. rewrite E1 in E2.
    clear -E2. revert Q E2. induction P as [|a P IH]; intros [|b Q] E; cbn in E; try discriminate; [reflexivity|]. injection E as E1 E2. f_equal; [lia|now apply IH].
Qed.
