(** Two runs of a reduction over the same elements whose accumulators are related stay related. *)
From Verif Require Import Base Spec M_Layout M_Indexer M_Broadcast M_Rearr M_Iter M_Kernel M_Tensor M_Reduce.
Local Open Scope Z_scope.

Inductive res_rel {A B} (R : A -> B -> Prop) : res A -> res B -> Prop :=
| rr_ok x y : R x y -> res_rel R (Ok x) (Ok y)
| rr_err e : res_rel R (Err e) (Err e)
| rr_panic : res_rel R Panic Panic.
Lemma rr_bind {A B A' B'} (R : A -> B -> Prop) (R' : A' -> B' -> Prop) m1 m2 f1 f2 : res_rel R m1 m2 -> (forall x y, R x y -> res_rel R' (f1 x) (f2 y)) -> res_rel R' (bind m1 f1) (bind m2 f2).
Proof. intros [x y H|e|] K; cbn; [auto|constructor|constructor]. Qed.
Lemma rr_same {A A' B'} (R' : A' -> B' -> Prop) (m : res A) f1 f2 : (forall x, res_rel R' (f1 x) (f2 x)) -> res_rel R' (bind m f1) (bind m f2).
Proof. intro K. destruct m; cbn; [auto|constructor|constructor]. Qed.
Lemma rr_refl {A} (m : res A) : res_rel eq m m. Proof. destruct m; now constructor. Qed.
Lemma rr_fold {A B X} (R : A -> B -> Prop) (f1 : A -> X -> res A) f2 xs : (forall x y p, R x y -> res_rel R (f1 x p) (f2 y p)) -> forall x y, R x y -> res_rel R (fold_res f1 xs x) (fold_res f2 xs y).
Proof. intro K. induction xs as [|p xs IH]; intros x y H; cbn; [now constructor|]. eapply rr_bind; [apply K, H|]. intros; now apply IH. Qed.
Lemma rr_fold2 {A B X Y} (R : A -> B -> Prop) (P : X -> Y -> Prop) (f1 : A -> X -> res A) f2 xs ys : (forall x y p q, R x y -> P p q -> res_rel R (f1 x p) (f2 y q)) -> Forall2 P xs ys -> forall x y, R x y -> res_rel R (fold_res f1 xs x) (fold_res f2 ys y).
Proof. intros K F. induction F as [|p q xs ys Hp F IH]; intros x y H; cbn; [now constructor|]. eapply rr_bind; [apply K; eassumption|]. intros; now apply IH. Qed.
Lemma rr_map {X Y A B} (P : X -> Y -> Prop) (R : A -> B -> Prop) (f1 : X -> res A) f2 xs ys : (forall p q, P p q -> res_rel R (f1 p) (f2 q)) -> Forall2 P xs ys -> res_rel (Forall2 R) (map_res f1 xs) (map_res f2 ys).
Proof. intros K F. induction F as [|p q xs ys Hp F IH]; cbn; [repeat constructor|]. eapply rr_bind; [apply K; eassumption|]. intros a b Hab. eapply rr_bind; [exact IH|]. intros; now repeat constructor. Qed.
Lemma rr_map1 {X A B} (R : A -> B -> Prop) (f1 : X -> res A) f2 xs : (forall p, res_rel R (f1 p) (f2 p)) -> res_rel (Forall2 R) (map_res f1 xs) (map_res f2 xs).
Proof. intro K. apply rr_map with (P := eq); [intros p q ->; auto|]. induction xs; now constructor. Qed.
Lemma rr_get {A B} (R : A -> B -> Prop) xs ys i : Forall2 R xs ys -> res_rel R (zget xs i) (zget ys i).
Proof. intro F. unfold zget. destruct (i <? 0); [constructor|]. unfold vget. generalize (Z.to_nat i). induction F; intros [|n]; cbn; try constructor; auto. Qed.
Lemma F2_length {A B} (R : A -> B -> Prop) xs ys : Forall2 R xs ys -> length xs = length ys.
Proof. induction 1; cbn; auto. Qed.
Lemma F2_upd {A B} (R : A -> B -> Prop) xs ys i x y : Forall2 R xs ys -> R x y -> Forall2 R (upd xs i x) (upd ys i y).
Proof. intros F H. revert i. induction F; intros [|n]; cbn; constructor; auto. Qed.
Lemma rr_set {A B} (R : A -> B -> Prop) xs ys i x y : Forall2 R xs ys -> R x y -> res_rel (Forall2 R) (zset xs i x) (zset ys i y).
Proof. intros F H. unfold zset. destruct (i <? 0); [constructor|]. unfold vset. rewrite (F2_length _ _ _ F). destruct (_ <? _)%nat; constructor. now apply F2_upd. Qed.
Definition opt_rel {A B} (R : A -> B -> Prop) (x : option A) (y : option B) : Prop :=
  match x, y with Some x, Some y => R x y | None, None => True | _, _ => False end.
Lemma rr_init {A B} (R : A -> B -> Prop) xs ys : Forall2 (opt_rel R) xs ys -> res_rel (Forall2 R) (assume_init xs) (assume_init ys).
Proof. intro F. unfold assume_init. eapply rr_map; [|exact F]. intros [p|] [q|] H; cbn in H; try easy; now constructor. Qed.
Lemma F2_uninit {A B} (R : A -> B -> Prop) n : Forall2 (opt_rel R) (uninit A n) (uninit B n).
Proof. unfold uninit. induction (Z.to_nat n); cbn; constructor; cbn; auto. Qed.
Lemma F2_perm {A B} (R : A -> B -> Prop) xs' xs : Permutation xs' xs -> forall ys, Forall2 R xs ys -> exists ys', Permutation ys' ys /\ Forall2 R xs' ys'.
Proof. intro P. apply Permutation_sym in P. intros ys F. destruct (Permutation_Forall2 P F) as (ys' & P' & F'). exists ys'. split; auto. now apply Permutation_sym. Qed.

Section Two.
  Context {T S1 S2 O1 O2 : Type} (RS : S1 -> S2 -> Prop) (RO : O1 -> O2 -> Prop).
  Context (e1 : S1) (f1 : S1 -> T -> S1) (s1 : S1 -> S1 -> S1) (o1 : S1 -> O1).
  Context (e2 : S2) (f2 : S2 -> T -> S2) (s2 : S2 -> S2 -> S2) (o2 : S2 -> O2).
  Context (He : RS e1 e2) (Hf : forall x y p, RS x y -> RS (f1 x p) (f2 y p)) (Hs : forall x y x' y', RS x y -> RS x' y' -> RS (s1 x x') (s2 y y')) (Ho : forall x y, RS x y -> RO (o1 x) (o2 y)).

  Lemma two_fold xs : forall x y, RS x y -> RS (fold_left f1 xs x) (fold_left f2 xs y).
  Proof. induction xs as [|p xs IH]; intros x y H; cbn; auto. Qed.
  Lemma two_loop n : forall xs p0 p1 p2 p3 p4 p5 p6 p7 q0 q1 q2 q3 q4 q5 q6 q7, (length xs <= n)%nat -> RS p0 q0 -> RS p1 q1 -> RS p2 q2 -> RS p3 q3 -> RS p4 q4 -> RS p5 q5 -> RS p6 q6 -> RS p7 q7 ->
    exists r0 r1 r2 r3 r4 r5 r6 r7 t0 t1 t2 t3 t4 t5 t6 t7 ys, unrolled_loop f1 xs p0 p1 p2 p3 p4 p5 p6 p7 = (r0, r1, r2, r3, r4, r5, r6, r7, ys) /\ unrolled_loop f2 xs q0 q1 q2 q3 q4 q5 q6 q7 = (t0, t1, t2, t3, t4, t5, t6, t7, ys) /\
      RS r0 t0 /\ RS r1 t1 /\ RS r2 t2 /\ RS r3 t3 /\ RS r4 t4 /\ RS r5 t5 /\ RS r6 t6 /\ RS r7 t7.
  Proof. induction n as [|n IH]; intros xs p0 p1 p2 p3 p4 p5 p6 p7 q0 q1 q2 q3 q4 q5 q6 q7 L H0 H1 H2 H3 H4 H5 H6 H7.
    - destruct xs; [|cbn in L; lia]. do 17 eexists. cbn. split; [reflexivity|]. split; [reflexivity|]. tauto.
    - destruct xs as [|x0 [|x1 [|x2 [|x3 [|x4 [|x5 [|x6 [|x7 xs]]]]]]]]; try (do 17 eexists; cbn; split; [reflexivity|]; split; [reflexivity|]; tauto).
      cbn [unrolled_loop]. apply IH; auto. cbn in L. lia. Qed.
  Lemma two_unrolled xs : RS (unrolled_reduce e1 f1 s1 xs) (unrolled_reduce e2 f2 s2 xs).
  Proof. unfold unrolled_reduce. destruct (two_loop (length xs) xs e1 e1 e1 e1 e1 e1 e1 e1 e2 e2 e2 e2 e2 e2 e2 e2) as (r0 & r1 & r2 & r3 & r4 & r5 & r6 & r7 & t0 & t1 & t2 & t3 & t4 & t5 & t6 & t7 & ys & E1 & E2 & H); auto. rewrite E1, E2.
    destruct H as (H0 & H1 & H2 & H3 & H4 & H5 & H6 & H7). apply two_fold. repeat apply Hs; auto. Qed.
  Lemma two_add_at a x y p : RS x y -> res_rel RS (add_at f1 a x p) (add_at f2 a y p).
  Proof. intro H. unfold add_at. apply rr_same. intro v. constructor. auto. Qed.
  Lemma two_add_slice a n x y p : RS x y -> res_rel RS (add_slice e1 f1 s1 a n x p) (add_slice e2 f2 s2 a n y p).
  Proof. intro H. unfold add_slice. apply rr_same. intro v. constructor. apply Hs; auto. apply two_unrolled. Qed.
  Lemma two_reduce_all k a la : res_rel RO (reduce_all e1 f1 s1 o1 k a la) (reduce_all e2 f2 s2 o2 k a la).
  Proof. unfold reduce_all. apply rr_same. intro l. destruct (with_contig [l]) as [contig n]. apply rr_bind with (R := RS); [|intros; constructor; auto].
    destruct (_ <=? _)%nat.
    - unfold dispatch. apply rr_same. intro pss. apply rr_fold; auto. intros x y p H. destruct p as [|i [|? ?]]; try constructor. now apply two_add_slice.
    - apply rr_same. intro ps. apply rr_fold; auto. intros; now apply two_add_at. Qed.
  Lemma two_par k g1 g2 : (forall x y p, RS x y -> res_rel RS (g1 x p) (g2 y p)) -> forall t it, res_rel RS (par_reduce e1 s1 k t it g1) (par_reduce e2 s2 k t it g2).
  Proof. intro K. induction t as [|n a IHa b IHb]; intro it; cbn.
    - apply rr_same. intro xs. eapply rr_bind; [apply rr_fold; [exact K|exact He]|]. intros; constructor; auto.
    - apply rr_same. intro len. apply rr_same. intro p. eapply rr_bind; [apply IHa|]. intros x y H. eapply rr_bind; [apply IHb|]. intros; constructor; auto. Qed.
  Lemma two_par_list {X} g1 g2 : (forall x y (p : X), RS x y -> res_rel RS (g1 x p) (g2 y p)) -> forall t xs, res_rel RS (par_reduce_list e1 s1 t xs g1) (par_reduce_list e2 s2 t xs g2).
  Proof. intro K. induction t as [|n a IHa b IHb]; intro xs; cbn.
    - eapply rr_bind; [apply rr_fold; [exact K|exact He]|]. intros; constructor; auto.
    - eapply rr_bind; [apply IHa|]. intros x y H. eapply rr_bind; [apply IHb|]. intros; constructor; auto. Qed.
  Lemma two_reduce_all_rayon chunk t ti k a la : res_rel RO (reduce_all_rayon e1 f1 s1 o1 chunk t ti k a la) (reduce_all_rayon e2 f2 s2 o2 chunk t ti k a la).
  Proof. unfold reduce_all_rayon. destruct (l_size la <? chunk)%nat; [apply two_reduce_all|]. apply rr_same. intro l. destruct (with_contig [l]) as [contig n]. apply rr_bind with (R := RS); [|intros; constructor; auto].
    destruct (_ <=? _)%nat.
    - destruct contig as [|lc [|? ?]]; try constructor. apply rr_same. intro it. destruct (n <? chunk)%nat.
      + apply two_par. intros; now apply two_add_slice.
      + apply two_par. intros x y p H. eapply rr_bind; [apply two_par_list|].
        * intros; now apply two_add_slice.
        * intros; constructor; auto.
    - apply rr_same. intro it. apply two_par. intros; now apply two_add_at. Qed.

  Lemma two_repeat x y n : RS x y -> RS (repeat_sum s1 x n) (repeat_sum s2 y n).
  Proof. intro H. unfold repeat_sum. assert (G : forall l u v, RS u v -> RS (fold_left (fun s (_ : nat) => s1 s x) l u) (fold_left (fun s _ => s2 s y) l v)) by (induction l; cbn; auto). auto. Qed.
  Definition two_runner (r1 : runner (S := S1)) (r2 : runner (S := S2)) : Prop := forall i l g1 g2, (forall x y p, RS x y -> res_rel RS (g1 x p) (g2 y p)) -> res_rel RS (r1 i l g1) (r2 i l g2).
  Lemma two_serial k : two_runner (run_serial e1 k) (run_serial e2 k).
  Proof. intros i l g1 g2 K. unfold run_serial. apply rr_same. intro ps. apply rr_fold; auto. Qed.
  Lemma two_rayon k tr : two_runner (run_rayon e1 s1 k tr) (run_rayon e2 s2 k tr).
  Proof. intros i l g1 g2 K. unfold run_rayon. apply rr_same. intro it. now apply two_par. Qed.
  Definition write_rel (w1 : Z * O1) (w2 : Z * O2) : Prop := fst w1 = fst w2 /\ RO (snd w1) (snd w2).
  Lemma two_branch1 r1 r2 k a off n n0 l m q : two_runner r1 r2 -> res_rel (Forall2 write_rel) (axes_branch1 e1 f1 s1 o1 r1 k a off n n0 l m q) (axes_branch1 e2 f2 s2 o2 r2 k a off n n0 l m q).
  Proof. intro K. unfold axes_branch1. apply rr_same. intro mcd. apply rr_same. intro ocd. apply rr_map1. intro p. eapply rr_bind; [apply K|].
    - intros; now apply two_add_slice.
    - intros; constructor. split; cbn; auto. apply Ho. now apply two_repeat. Qed.
  Lemma two_branch3 r1 r2 k a off n0 l m q : two_runner r1 r2 -> res_rel (Forall2 write_rel) (axes_branch3 f1 s1 o1 r1 k a off n0 l m q) (axes_branch3 f2 s2 o2 r2 k a off n0 l m q).
  Proof. intro K. unfold axes_branch3. apply rr_same. intro mcd. apply rr_same. intro ocd. apply rr_map1. intro p. eapply rr_bind; [apply K|].
    - intros; now apply two_add_at.
    - intros; constructor. split; cbn; auto. apply Ho. now apply two_repeat. Qed.
  Lemma F2_repeat n : Forall2 RS (repeat e1 n) (repeat e2 n). Proof. induction n; cbn; constructor; auto. Qed.
  Lemma two_chunk a base scd off c : res_rel (Forall2 RS) (chunk_acc e1 f1 a base scd off c) (chunk_acc e2 f2 a base scd off c).
  Proof. unfold chunk_acc. apply rr_fold; [|apply F2_repeat]. intros x y p H. apply rr_same. intro slc. constructor. revert slc. induction H as [|u v xs ys Huv H IH]; intros [|w slc]; cbn; constructor; auto. Qed.
  Lemma F2_concat {A B} (R : A -> B -> Prop) xs ys : Forall2 (Forall2 R) xs ys -> Forall2 R (concat xs) (concat ys).
  Proof. induction 1; cbn; auto using Forall2_app. Qed.
  Lemma two_branch2 k chunk a off n n0 l m q r : res_rel (Forall2 write_rel) (axes_branch2 e1 f1 s1 o1 k chunk a off n n0 l m q r) (axes_branch2 e2 f2 s2 o2 k chunk a off n n0 l m q r).
  Proof. unfold axes_branch2. apply rr_same. intro scd. apply rr_same. intro md. apply rr_same. intro od. apply rr_same. intros _. apply rr_bind with (R := Forall2 (Forall2 write_rel)); [|intros; constructor; now apply F2_concat].
    apply rr_map1. intro p. eapply rr_bind; [apply rr_map1; intro; apply two_chunk|]. intros vs ws H. constructor. apply F2_concat in H. generalize (seq 0 n). induction H as [|u v xs ys Huv H IH]; intros [|i is]; cbn; constructor; auto. split; cbn; auto. apply Ho. now apply two_repeat. Qed.
  Lemma two_spread k off l m out1 out2 : Forall2 (opt_rel RO) out1 out2 -> res_rel (Forall2 (opt_rel RO)) (axes_spread k off l m out1) (axes_spread k off l m out2).
  Proof. intro H. unfold axes_spread. apply rr_same. intro o0. apply rr_same. intro ocd. apply rr_fold; auto. intros x y i0 Hxy. apply rr_fold; auto. intros x' y' i H'. eapply rr_bind; [apply rr_get, H'|]. intros [v|] [w|] Hv; cbn in Hv; try easy; [|constructor]. apply rr_set; auto. Qed.
  Definition writes_rel (x : layout * layout * list (Z * O1) * (list (option O1) -> res (list (option O1)))) (y : layout * layout * list (Z * O2) * (list (option O2) -> res (list (option O2)))) : Prop :=
    let '(lm, lo, ws, sp) := x in let '(lm', lo', ws', sp') := y in lm = lm' /\ lo = lo' /\ Forall2 write_rel ws ws' /\ forall o o', Forall2 (opt_rel RO) o o' -> res_rel (Forall2 (opt_rel RO)) (sp o) (sp' o').
  Lemma two_writes r1 r2 chunk dflt a la axes : two_runner r1 r2 -> res_rel writes_rel (axes_writes e1 f1 s1 o1 r1 chunk dflt a la axes) (axes_writes e2 f2 s2 o2 r2 chunk dflt a la axes).
  Proof. intro K. unfold axes_writes. apply rr_same. intros [ls lm]. apply rr_same. intro lo. destruct (get_axes_composition ls) as [[[? as0] asc] asd]. destruct (get_axes_composition lm) as [[[? am0] amc] amd]. do 4 (apply rr_same; intro).
    apply rr_bind with (R := Forall2 write_rel).
    - destruct (_ <? _)%nat; [|destruct (_ <? _)%nat].
      + do 3 (apply rr_same; intro). now apply two_branch1.
      + do 4 (apply rr_same; intro). now apply two_branch2.
      + do 3 (apply rr_same; intro). now apply two_branch3.
    - intros ws ws' H. constructor. cbv beta iota delta [writes_rel]. split; [reflexivity|]. split; [reflexivity|]. split; [exact H|]. intros o o' Hoo. destruct (_ <? _)%nat; [|now constructor]. do 2 (apply rr_same; intro). now apply two_spread. Qed.
  Lemma two_write o o' w w' : Forall2 (opt_rel RO) o o' -> write_rel w w' -> res_rel (Forall2 (opt_rel RO)) (write_out o w) (write_out o' w').
  Proof. intros H [E R]. unfold write_out. rewrite E. now apply rr_set. Qed.
  Definition out_rel (x : list O1 * layout) (y : list O2 * layout) : Prop := Forall2 RO (fst x) (fst y) /\ snd x = snd y.
  Lemma two_finish dflt lm lo o o' : Forall2 (opt_rel RO) o o' -> res_rel out_rel (axes_finish dflt OK lm lo o) (axes_finish dflt OK lm lo o').
  Proof. intro H. unfold axes_finish. eapply rr_bind; [apply rr_init, H|]. intros; constructor. split; auto. Qed.
  Lemma two_reduce_axes dflt a la axes : res_rel out_rel (reduce_axes e1 f1 s1 o1 dflt OK a la axes) (reduce_axes e2 f2 s2 o2 dflt OK a la axes).
  Proof. unfold reduce_axes. eapply rr_bind; [apply two_writes, two_serial|]. intros [[[lm lo] ws] sp] [[[lm' lo'] ws'] sp'] (<- & <- & Hw & Hsp). eapply rr_bind; [eapply rr_fold2; [intros; apply two_write; eassumption|exact Hw|apply F2_uninit]|]. intros o o' H. eapply rr_bind; [apply Hsp, H|]. intros; now apply two_finish. Qed.
  Lemma two_reduce_axes_rayon switch tr dflt a la axes r1 : reduce_axes_rayon e1 f1 s1 o1 switch tr dflt OK a la axes r1 -> exists r2, reduce_axes_rayon e2 f2 s2 o2 switch tr dflt OK a la axes r2 /\ res_rel out_rel r1 r2.
  Proof. unfold reduce_axes_rayon. destruct (l_size la <? switch)%nat. { intros ->. eexists. split; [reflexivity|]. apply two_reduce_axes. }
    destruct (two_writes (run_rayon e1 s1 Dyn tr) (run_rayon e2 s2 Dyn tr) 64 dflt a la axes (two_rayon Dyn tr)) as [[[[lm lo] ws] sp] [[[lm' lo'] ws'] sp'] W|e|].
    - destruct W as (<- & <- & Hw & Hsp). intros (out & (steps & P & ->) & ->). destruct (F2_perm _ _ _ P _ Hw) as (steps' & P' & F). eexists. split; [exists (fold_res write_out steps' (uninit O2 (Z.of_nat (l_size lo)))); split; [exists steps'; split; [exact P'|reflexivity]|reflexivity]|].
      eapply rr_bind; [eapply rr_fold2; [intros; apply two_write; eassumption|exact F|apply F2_uninit]|]. intros o o' H. eapply rr_bind; [apply Hsp, H|]. intros; now apply two_finish.
    - intros ->. eexists. split; [reflexivity|constructor].
    - intros ->. eexists. split; [reflexivity|constructor]. Qed.
End Two.
