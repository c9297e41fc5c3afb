From Verif Require Import Base Spec Spec_Matmul P_Index P_List M_Layout P_Layout P_Bounds P_Contig P_Strides M_Indexer P_Indexer M_Broadcast P_Broadcast Q_Broadcast M_Rearr M_Iter P_Iter M_Kernel P_Kernel M_Tensor P_Tensor M_Matmul.
Local Open Scope Z_scope.

(** ** any sequence of cell updates *)
Lemma modify_seq {I C} (pos : I -> Z) (h : I -> C -> res C) (g : I -> C -> C) ixs : forall c, (forall i, In i ixs -> 0 <= pos i < Z.of_nat (length c)) ->
  (forall i x, In i ixs -> h i x = Ok (g i x)) ->
  exists c', fold_res (modify pos h) ixs c = Ok c' /\ length c' = length c /\
    forall p v, peek c p = Some v -> peek c' p = Some (fold_left (fun v i => g i v) (filter (fun i => pos i =? p) ixs) v).
Proof. induction ixs as [|i ixs IH]; intros c R T; cbn [fold_res filter].
  - exists c. split; [auto|]. split; [auto|]. intros p v H. exact H.
  - destruct (proj1 (peek_inside c (pos i)) (R i (or_introl eq_refl))) as (x & Hx). destruct (modify_ok pos h c i x (g i x) Hx) as (c1 & E1 & L1 & P1 & Q1). { apply T. now left. }
    rewrite E1. cbn [bind]. destruct (IH c1) as (c' & E' & L' & A'). { intros j Hj. rewrite L1. apply R. now right. } { intros j y Hj. apply T. now right. }
    exists c'. split; [auto|]. split; [congruence|]. intros p v H. destruct (Z.eqb_spec (pos i) p) as [E|E].
    + cbn [fold_left]. apply A'. subst p. rewrite P1. congruence.
    + apply A'. rewrite Q1; auto. Qed.

Lemma zget_swap {A B C} (a : list A) p (b : list B) q (f : A -> B -> res C) : bind (zget a p) (fun x => bind (zget b q) (fun y => f x y)) = bind (zget b q) (fun y => bind (zget a p) (fun x => f x y)).
Proof. unfold zget, vget. destruct (p <? 0), (q <? 0); auto; [destruct (nth_error b (Z.to_nat q))|destruct (nth_error a (Z.to_nat p))|destruct (nth_error a (Z.to_nat p)), (nth_error b (Z.to_nat q))]; auto. Qed.

(** ** the arithmetic *)
Section Algebra.
  Context {C : Type} (zero : C) (add mul : C -> C -> C) (SR : comm_semiring zero add mul).
  Lemma add_comm x y : add x y = add y x. Proof. apply SR. Qed.
  Lemma add_assoc x y z : add x (add y z) = add (add x y) z. Proof. apply SR. Qed.
  Lemma add_zero x : add zero x = x. Proof. apply SR. Qed.
  Lemma add_zero_r x : add x zero = x. Proof. rewrite add_comm. apply add_zero. Qed.
  Lemma mul_zero x : mul x zero = zero. Proof. destruct SR as (_ & H & _ & Z). rewrite H. apply Z. Qed.
  Lemma mul_add x y z : mul x (add y z) = add (mul x y) (mul x z). Proof. apply SR. Qed.
  Lemma mul_comm x y : mul x y = mul y x. Proof. apply SR. Qed.
  Lemma accum_total alpha (ps : list C) : forall x, fold_left (fun v p => add (mul alpha p) v) ps x = add x (mul alpha (total zero add ps)).
  Proof. induction ps as [|p ps IH]; intro x; cbn [fold_left total fold_right]. - now rewrite mul_zero, add_zero_r.
    - rewrite IH. change (fold_right add zero ps) with (total zero add ps). rewrite mul_add, (add_comm (mul alpha p) x). now rewrite add_assoc. Qed.
  Lemma accum_total' alpha (ps : list C) : forall x, fold_left (fun v p => add v (mul alpha p)) ps x = add x (mul alpha (total zero add ps)).
  Proof. intro x. rewrite <- accum_total. revert x. induction ps as [|p ps IH]; intro x; cbn [fold_left]; auto. now rewrite IH, (add_comm x). Qed.
  Lemma sum_total (ps : list C) : forall x, fold_left add ps x = add x (total zero add ps).
  Proof. induction ps as [|p ps IH]; intro x; cbn [fold_left total fold_right]. - now rewrite add_zero_r. - rewrite IH. now rewrite add_assoc. Qed.
End Algebra.

Lemma flat_map_nil_in {A B} (f : A -> list B) l : (forall x, In x l -> f x = []) -> flat_map f l = [].
Proof. induction l; cbn; intro H; auto. rewrite H by auto. apply IHl. intros; apply H; auto. Qed.

(** ** one step list for a stack of products *)
Definition gstep := (nat * option nat * nat)%type.
Definition gsteps (M K N : nat) : list gstep :=
  flat_map (fun m => map (fun n => (m, None, n)) (seq 0 N) ++ flat_map (fun k => map (fun n => (m, Some k, n)) (seq 0 N)) (seq 0 K)) (seq 0 M).
Definition of_cell (m n : nat) (s : gstep) : bool := (fst (fst s) =? m)%nat && (snd s =? n)%nat.

Lemma filter_flat_map {A B} (p : B -> bool) (f : A -> list B) l : filter p (flat_map f l) = flat_map (fun x => filter p (f x)) l.
Proof. induction l; cbn; auto. now rewrite filter_app, IHl. Qed.
Lemma flat_map_one {A} m (f : nat -> list A) s len : (forall i, i <> m -> f i = []) -> (s <= m < s + len)%nat -> flat_map f (seq s len) = f m.
Proof. intros H. revert s. induction len as [|len IH]; intros s R; [lia|]. cbn. destruct (Nat.eq_dec s m) as [->|E].
  - assert (F : forall t k, (m < t)%nat -> flat_map f (seq t k) = []). { intros t k. revert t. induction k as [|k IHk]; intros t Ht; auto. cbn. rewrite H by lia. rewrite IHk by lia. auto. }
    rewrite F by lia. apply app_nil_r.
  - rewrite (H s) by auto. apply IH. lia. Qed.
Lemma filter_false {A} (p : A -> bool) l : (forall x, In x l -> p x = false) -> filter p l = [].
Proof. induction l; cbn; intro H; auto. rewrite H by auto. apply IHl. intros; apply H; auto. Qed.
Lemma filter_seq_one {A} (f : nat -> A) (p : A -> bool) n N : (n < N)%nat -> (forall i, p (f i) = (i =? n)%nat) -> filter p (map f (seq 0 N)) = [f n].
Proof. intros Hn Hp. change (map f (seq 0 N)) with (flat_map (fun i => [f i]) (seq 0 N)). rewrite filter_flat_map.
  rewrite (flat_map_one n); [|intros i Hi; cbn [filter]; rewrite Hp; now replace (i =? n)%nat with false by lia|lia]. cbn [filter]. rewrite Hp, Nat.eqb_refl. reflexivity. Qed.
Lemma flat_map_single {A B} (f : A -> B) l : flat_map (fun x => [f x]) l = map f l. Proof. reflexivity. Qed.

Lemma gsteps_cell M K N m n : (m < M)%nat -> (n < N)%nat -> filter (of_cell m n) (gsteps M K N) = (m, None, n) :: map (fun k => (m, Some k, n)) (seq 0 K).
Proof. intros Hm Hn. unfold gsteps. rewrite filter_flat_map. rewrite (flat_map_one m); [| |lia].
  - rewrite filter_app. rewrite (filter_seq_one _ _ n N Hn). 2:{ intro i. unfold of_cell. cbn. now rewrite Nat.eqb_refl. }
    cbn [app]. f_equal. rewrite filter_flat_map. rewrite <- flat_map_single. apply flat_map_ext. intro k. apply filter_seq_one; auto. intro i. unfold of_cell. cbn. now rewrite Nat.eqb_refl.
  - intros i Hi. apply filter_false. intros x Hx. apply in_app_iff in Hx. unfold of_cell. destruct Hx as [Hx|Hx].
    + apply in_map_iff in Hx as (j & <- & _). cbn. lia.
    + apply in_flat_map in Hx as (k & _ & Hx). apply in_map_iff in Hx as (j & <- & _). cbn. lia. Qed.
Lemma in_gsteps M K N m o n : In (m, o, n) (gsteps M K N) -> (m < M)%nat /\ (n < N)%nat /\ match o with Some k => (k < K)%nat | None => True end.
Proof. unfold gsteps. intro H. apply in_flat_map in H as (i & Hi & H). apply in_seq in Hi. apply in_app_iff in H as [H|H].
  - apply in_map_iff in H as (j & [= <- <- <-] & Hj). apply in_seq in Hj. lia.
  - apply in_flat_map in H as (k & Hk & H). apply in_map_iff in H as (j & [= <- <- <-] & Hj). apply in_seq in Hj, Hk. lia. Qed.

Section Steps.
  Context {A B C : Type} (mab : A -> B -> C) (zero : C) (add mul : C -> C -> C) (a : list A) (b : list B) (alpha beta : C).
  Definition ghead (pa pb : Z) (z : C) : res C := let* x := zget a pa in let* y := zget b pb in Ok (add (mul alpha (mab x y)) z).
  Definition gdo (pA pB : nat -> nat -> Z) (s : gstep) (z : C) : res C :=
    match snd (fst s) with None => Ok (mul beta z) | Some k => ghead (pA (fst (fst s)) k) (pB k (snd s)) z end.
  Definition gpos (pC : nat -> nat -> Z) (s : gstep) : Z := pC (fst (fst s)) (snd s).

  Lemma accum_modify c pc pa pb : accum_cell mab mul add a b alpha c pc pa pb = let* z := zget c pc in let* v := ghead pa pb z in zset c pc v.
  Proof. unfold accum_cell, ghead. rewrite (zget_swap c pc a pa) || idtac.
    transitivity (let* x := zget a pa in let* z := zget c pc in let* y := zget b pb in zset c pc (add (mul alpha (mab x y)) z)).
    { apply bind_ext. intro x. apply zget_swap. }
    rewrite zget_swap. apply bind_ext. intro z. rewrite bind_assoc. apply bind_ext. intro x. rewrite bind_assoc. reflexivity. Qed.

  Lemma gemm_steps c lc la lb M K N : l_shape lc = [M; N] -> l_shape la = [M; K] -> l_shape lb = [K; N] ->
    gemm mab mul add c lc a la b lb alpha beta = fold_res (modify (gpos (fun m n => addr lc [m; n])) (gdo (fun m k => addr la [m; k]) (fun k n => addr lb [k; n]))) (gsteps M K N) c.
  Proof. intros Sc Sa Sb. unfold gemm, extent. rewrite Sc, Sa, Sb. cbn [nth]. rewrite !Nat.eqb_refl. cbn [check bind]. unfold gsteps. rewrite fold_res_flat_map. apply fold_res_ext. intros m c0 _.
    rewrite fold_res_app, fold_res_map.
    transitivity (bind (fold_res (fun s x => modify (gpos (fun m n => addr lc [m; n])) (gdo (fun m k => addr la [m; k]) (fun k n => addr lb [k; n])) s (m, None, x)) (seq 0 N) c0)
      (fun c => fold_res (fun c i_k => fold_res (fun c i_n => accum_cell mab mul add a b alpha c (index_uncheck lc [m; i_n]) (index_uncheck la [m; i_k]) (index_uncheck lb [i_k; i_n])) (seq 0 N) c) (seq 0 K) c)).
    { reflexivity. }
    apply bind_ext. intro c1. rewrite fold_res_flat_map. apply fold_res_ext. intros k c2 _. rewrite fold_res_map. apply fold_res_ext. intros n c3 _.
    rewrite accum_modify, !index_uncheck_addr. reflexivity. Qed.

  (** a stack of products: batch indices [bxs], the positions in each operand given per batch index *)
  Lemma steps_exact {X} (eqb : X -> X -> bool) (pA pB pC : X -> nat -> nat -> Z) bxs M K N c : (forall x y, eqb x y = true <-> x = y) -> NoDup bxs ->
    (forall x m n, In x bxs -> (m < M)%nat -> (n < N)%nat -> 0 <= pC x m n < Z.of_nat (length c)) ->
    (forall x m k, In x bxs -> (m < M)%nat -> (k < K)%nat -> (N <> 0)%nat -> 0 <= pA x m k < Z.of_nat (length a)) ->
    (forall x k n, In x bxs -> (M <> 0)%nat -> (k < K)%nat -> (n < N)%nat -> 0 <= pB x k n < Z.of_nat (length b)) ->
    (forall x y m n m' n', In x bxs -> In y bxs -> (m < M)%nat -> (n < N)%nat -> (m' < M)%nat -> (n' < N)%nat -> pC x m n = pC y m' n' -> x = y /\ m = m' /\ n = n') ->
    exists c', fold_res (fun c x => fold_res (modify (gpos (pC x)) (gdo (pA x) (pB x))) (gsteps M K N) c) bxs c = Ok c' /\ length c' = length c /\
      (forall x m n, In x bxs -> (m < M)%nat -> (n < N)%nat -> exists z vs, peek c (pC x m n) = Some z /\
         Forall2 (fun k v => exists u w, peek a (pA x m k) = Some u /\ peek b (pB x k n) = Some w /\ v = mab u w) (seq 0 K) vs /\
         peek c' (pC x m n) = Some (fold_left (fun v p => add (mul alpha p) v) vs (mul beta z))) /\
      (forall p, (forall x m n, In x bxs -> (m < M)%nat -> (n < N)%nat -> pC x m n <> p) -> peek c' p = peek c p).
  Proof. intros EQ ND IC IA IB INJ.
    set (pos := fun s : X * gstep => gpos (fun m n => pC (fst s) m n) (snd s)).
    set (h := fun s : X * gstep => gdo (fun m k => pA (fst s) m k) (fun k n => pB (fst s) k n) (snd s)).
    set (steps := flat_map (fun x => map (fun s => (x, s)) (gsteps M K N)) bxs).
    assert (E : fold_res (fun c x => fold_res (modify (gpos (pC x)) (gdo (pA x) (pB x))) (gsteps M K N) c) bxs c = fold_res (modify pos h) steps c).
    { unfold steps. rewrite fold_res_flat_map. apply fold_res_ext. intros x c0 Hx. rewrite fold_res_map. reflexivity. }
    assert (INS : forall x m o n, In (x, (m, o, n)) steps -> In x bxs /\ (m < M)%nat /\ (n < N)%nat /\ match o with Some k => (k < K)%nat | None => True end).
    { intros x m o n H. apply in_flat_map in H as (y & Hy & H). apply in_map_iff in H as (s & [= -> ->] & H). apply in_gsteps in H. tauto. }
    set (g := fun s z => match h s z with Ok v => v | _ => z end).
    destruct (modify_seq pos h g steps c) as (c' & E' & L' & V').
    { intros [x [[m o] n]] H. apply INS in H as (H1 & H2 & H3 & _). unfold pos, gpos. cbn. now apply IC. }
    { intros [x [[m o] n]] z H. apply INS in H as (H1 & H2 & H3 & H4). unfold g. assert (T : exists v, h (x, (m, o, n)) z = Ok v); [|destruct T as [v T]; change (h (x, (m, o, n)) z = Ok (match h (x, (m, o, n)) z with Ok v => v | _ => z end)); now rewrite T].
      unfold h, gdo. cbn [fst snd]. destruct o as [k|]; [|eauto]. unfold ghead.
      destruct (proj1 (peek_inside a (pA x m k))) as (u & Hu); [apply IA; auto; lia|]. destruct (proj1 (peek_inside b (pB x k n))) as (w & Hw); [apply IB; auto; lia|].
      apply zget_peek in Hu, Hw. rewrite Hu, Hw. cbn. eauto. }
    exists c'. split; [congruence|]. split; [auto|].
    assert (FLT : forall x m n, In x bxs -> (m < M)%nat -> (n < N)%nat -> filter (fun i => pos i =? pC x m n) steps = map (fun s => (x, s)) ((m, None, n) :: map (fun k => (m, Some k, n)) (seq 0 K))).
    { intros x m n Hx Hm Hn. rewrite <- (gsteps_cell M K N m n) by auto.
      transitivity (filter (fun i => eqb (fst i) x && of_cell m n (snd i)) steps).
      { apply filter_ext_in. intros [y [[m' o] n']] H. apply INS in H as (H1 & H2 & H3 & _). unfold pos, gpos, of_cell. cbn [fst snd]. apply eq_true_iff_eq. rewrite Z.eqb_eq, !andb_true_iff, EQ, !Nat.eqb_eq. split.
        - intro H. apply INJ in H; auto.
        - intros (-> & -> & ->). auto. }
      unfold steps. rewrite filter_flat_map. clear - EQ ND Hx. induction bxs as [|y ys IH]; [easy|]. cbn [flat_map]. inversion ND as [|? ? N1 N2]; subst.
      assert (F : forall y s, filter (fun i : X * gstep => eqb (fst i) x && of_cell m n (snd i)) (map (fun s => (y, s)) s) = if eqb y x then map (fun s => (y, s)) (filter (of_cell m n) s) else []).
      { intros y0 s. induction s as [|s0 s IHs]; cbn. { now destruct (eqb y0 x). } rewrite IHs. destruct (eqb y0 x); cbn; auto. destruct (of_cell m n s0); auto. }
      rewrite F. destruct (eqb y x) eqn:EY.
      - apply EQ in EY as ->. rewrite (flat_map_nil_in _ ys). { apply app_nil_r. }
        intros z Hz. rewrite F. destruct (eqb z x) eqn:EZ; auto. apply EQ in EZ as ->. contradiction.
      - cbn [app]. apply IH; auto. destruct Hx as [<-|Hx]; auto. rewrite (proj2 (EQ y y) eq_refl) in EY. discriminate. }
    split.
    - intros x m n Hx Hm Hn. destruct (proj1 (peek_inside c (pC x m n)) (IC x m n Hx Hm Hn)) as (z & Hz).
      assert (VS : exists vs, Forall2 (fun k v => exists u w, peek a (pA x m k) = Some u /\ peek b (pB x k n) = Some w /\ v = mab u w) (seq 0 K) vs).
      { assert (G : forall ks, (forall k, In k ks -> (k < K)%nat) -> exists vs, Forall2 (fun k v => exists u w, peek a (pA x m k) = Some u /\ peek b (pB x k n) = Some w /\ v = mab u w) ks vs).
        { induction ks as [|k ks IH]; intro Hk. { exists []. constructor. } destruct IH as (vs & Hvs). { intros; apply Hk; now right. } assert (Hk' : (k < K)%nat) by (apply Hk; now left).
          destruct (proj1 (peek_inside a (pA x m k))) as (u & Hu); [apply IA; auto; lia|]. destruct (proj1 (peek_inside b (pB x k n))) as (w & Hw); [apply IB; auto; lia|].
          exists (mab u w :: vs). constructor; auto. exists u, w. auto. }
        apply G. intros k Hk. apply in_seq in Hk. lia. }
      destruct VS as (vs & Hvs). exists z, vs. split; [auto|]. split; [auto|]. rewrite (V' _ z Hz), FLT by auto. f_equal. cbn [map fold_left].
      change (g (x, (m, None, n)) z) with (mul beta z). clear - Hvs. revert Hvs. generalize (mul beta z). generalize (seq 0 K). intros ks z0 H. revert z0. induction H as [|k v ks vs (u & w & Hu & Hw & ->) H IH]; intro z0; cbn [map fold_left]; auto.
      rewrite IH. f_equal. unfold g, h, gdo, ghead. cbn [fst snd]. apply zget_peek in Hu, Hw. rewrite Hu, Hw. reflexivity.
    - intros p Hp. assert (FN : filter (fun i => pos i =? p) steps = []). { apply filter_false. intros [y [[m o] n]] H. apply INS in H as (H1 & H2 & H3 & _). apply Z.eqb_neq. unfold pos, gpos. cbn. now apply Hp. }
      destruct (peek c p) as [v|] eqn:Hv.
      + rewrite (V' p v Hv), FN. reflexivity.
      + destruct (peek c' p) as [v|] eqn:Hv'; auto. exfalso. assert (R : 0 <= p < Z.of_nat (length c')) by (apply peek_inside; eauto). rewrite L' in R. apply peek_inside in R as (w & Hw). congruence. Qed.
  (** a stack of products: batch indices [bxs], one matrix layout of each operand per batch index *)
  Lemma batch_exact {X} (eqb : X -> X -> bool) (PA PB PC : X -> layout) bxs M K N c : (forall x y, eqb x y = true <-> x = y) -> NoDup bxs ->
    (forall x, In x bxs -> l_shape (PC x) = [M; N] /\ l_shape (PA x) = [M; K] /\ l_shape (PB x) = [K; N]) ->
    (forall x m n, In x bxs -> (m < M)%nat -> (n < N)%nat -> 0 <= addr (PC x) [m; n] < Z.of_nat (length c)) ->
    (forall x m k, In x bxs -> (m < M)%nat -> (k < K)%nat -> (N <> 0)%nat -> 0 <= addr (PA x) [m; k] < Z.of_nat (length a)) ->
    (forall x k n, In x bxs -> (M <> 0)%nat -> (k < K)%nat -> (n < N)%nat -> 0 <= addr (PB x) [k; n] < Z.of_nat (length b)) ->
    (forall x y m n m' n', In x bxs -> In y bxs -> (m < M)%nat -> (n < N)%nat -> (m' < M)%nat -> (n' < N)%nat -> addr (PC x) [m; n] = addr (PC y) [m'; n'] -> x = y /\ m = m' /\ n = n') ->
    exists c', fold_res (fun c x => gemm mab mul add c (PC x) a (PA x) b (PB x) alpha beta) bxs c = Ok c' /\ length c' = length c /\
      (forall x m n, In x bxs -> (m < M)%nat -> (n < N)%nat -> exists z vs, peek c (addr (PC x) [m; n]) = Some z /\
         Forall2 (fun k v => exists u w, peek a (addr (PA x) [m; k]) = Some u /\ peek b (addr (PB x) [k; n]) = Some w /\ v = mab u w) (seq 0 K) vs /\
         peek c' (addr (PC x) [m; n]) = Some (fold_left (fun v p => add (mul alpha p) v) vs (mul beta z))) /\
      (forall p, (forall x m n, In x bxs -> (m < M)%nat -> (n < N)%nat -> addr (PC x) [m; n] <> p) -> peek c' p = peek c p).
  Proof. intros EQ ND SH IC IA IB INJ. destruct (steps_exact eqb (fun x m k => addr (PA x) [m; k]) (fun x k n => addr (PB x) [k; n]) (fun x m n => addr (PC x) [m; n]) bxs M K N c EQ ND IC IA IB INJ) as (c' & E & H).
    exists c'. split; [|exact H]. rewrite <- E. apply fold_res_ext. intros x c0 Hx. destruct (SH x Hx) as (S1 & S2 & S3). now apply gemm_steps. Qed.
  (** over a commutative semiring *)
  Lemma steps_run {X} (eqb : X -> X -> bool) (pA pB pC : X -> nat -> nat -> Z) bxs M K N c : comm_semiring zero add mul -> (forall x y, eqb x y = true <-> x = y) -> NoDup bxs ->
    (forall x m n, In x bxs -> (m < M)%nat -> (n < N)%nat -> 0 <= pC x m n < Z.of_nat (length c)) ->
    (forall x m k, In x bxs -> (m < M)%nat -> (k < K)%nat -> (N <> 0)%nat -> 0 <= pA x m k < Z.of_nat (length a)) ->
    (forall x k n, In x bxs -> (M <> 0)%nat -> (k < K)%nat -> (n < N)%nat -> 0 <= pB x k n < Z.of_nat (length b)) ->
    (forall x y m n m' n', In x bxs -> In y bxs -> (m < M)%nat -> (n < N)%nat -> (m' < M)%nat -> (n' < N)%nat -> pC x m n = pC y m' n' -> x = y /\ m = m' /\ n = n') ->
    exists c', fold_res (fun c x => fold_res (modify (gpos (pC x)) (gdo (pA x) (pB x))) (gsteps M K N) c) bxs c = Ok c' /\ length c' = length c /\
      (forall x m n, In x bxs -> (m < M)%nat -> (n < N)%nat -> exists z vs, peek c (pC x m n) = Some z /\
         Forall2 (fun k v => exists u w, peek a (pA x m k) = Some u /\ peek b (pB x k n) = Some w /\ v = mab u w) (seq 0 K) vs /\
         peek c' (pC x m n) = Some (add (mul beta z) (mul alpha (total zero add vs)))) /\
      (forall p, (forall x m n, In x bxs -> (m < M)%nat -> (n < N)%nat -> pC x m n <> p) -> peek c' p = peek c p).
  Proof. intros SR EQ ND IC IA IB INJ. destruct (steps_exact eqb pA pB pC bxs M K N c EQ ND IC IA IB INJ) as (c' & E & L & V & U). exists c'. split; [exact E|]. split; [exact L|]. split; [|exact U].
    intros x m n Hx Hm Hn. destruct (V x m n Hx Hm Hn) as (z & vs & H1 & H2 & H3). exists z, vs. rewrite (accum_total zero add mul SR alpha vs) in H3. auto. Qed.
  Lemma batch_run {X} (eqb : X -> X -> bool) (PA PB PC : X -> layout) bxs M K N c : comm_semiring zero add mul -> (forall x y, eqb x y = true <-> x = y) -> NoDup bxs ->
    (forall x, In x bxs -> l_shape (PC x) = [M; N] /\ l_shape (PA x) = [M; K] /\ l_shape (PB x) = [K; N]) ->
    (forall x m n, In x bxs -> (m < M)%nat -> (n < N)%nat -> 0 <= addr (PC x) [m; n] < Z.of_nat (length c)) ->
    (forall x m k, In x bxs -> (m < M)%nat -> (k < K)%nat -> (N <> 0)%nat -> 0 <= addr (PA x) [m; k] < Z.of_nat (length a)) ->
    (forall x k n, In x bxs -> (M <> 0)%nat -> (k < K)%nat -> (n < N)%nat -> 0 <= addr (PB x) [k; n] < Z.of_nat (length b)) ->
    (forall x y m n m' n', In x bxs -> In y bxs -> (m < M)%nat -> (n < N)%nat -> (m' < M)%nat -> (n' < N)%nat -> addr (PC x) [m; n] = addr (PC y) [m'; n'] -> x = y /\ m = m' /\ n = n') ->
    exists c', fold_res (fun c x => gemm mab mul add c (PC x) a (PA x) b (PB x) alpha beta) bxs c = Ok c' /\ length c' = length c /\
      (forall x m n, In x bxs -> (m < M)%nat -> (n < N)%nat -> exists z vs, peek c (addr (PC x) [m; n]) = Some z /\
         Forall2 (fun k v => exists u w, peek a (addr (PA x) [m; k]) = Some u /\ peek b (addr (PB x) [k; n]) = Some w /\ v = mab u w) (seq 0 K) vs /\
         peek c' (addr (PC x) [m; n]) = Some (add (mul beta z) (mul alpha (total zero add vs)))) /\
      (forall p, (forall x m n, In x bxs -> (m < M)%nat -> (n < N)%nat -> addr (PC x) [m; n] <> p) -> peek c' p = peek c p).
  Proof. intros SR EQ ND SH IC IA IB INJ. destruct (batch_exact eqb PA PB PC bxs M K N c EQ ND SH IC IA IB INJ) as (c' & E & L & V & U). exists c'. split; [exact E|]. split; [exact L|]. split; [|exact U].
    intros x m n Hx Hm Hn. destruct (V x m n Hx Hm Hn) as (z & vs & H1 & H2 & H3). exists z, vs. rewrite (accum_total zero add mul SR alpha vs) in H3. auto. Qed.
End Steps.
