(** Proofs about the reference-counted heap of M_Shared. *)
From Verif Require Import Base Spec P_List M_Layout M_Rearr M_Tensor M_Shared Spec_Shared.
Local Open Scope nat_scope.

Definition points {T} (p : nat) (v : option (data T * layout)) : bool :=
  match v with Some (DArc q, _) => q =? p | _ => false end.
(** number of variables that hold a handle on buffer [p] *)
Fixpoint handles {T} (vs : list (option (data T * layout))) (p : nat) : nat :=
  match vs with [] => 0 | v :: r => (if points p v then 1 else 0) + handles r p end.
(** the strong count of every buffer is the number of handles *)
Definition counted {T} (s : store T) : Prop := forall p, arc_count (s_heap s) p = handles (s_vars s) p.

Section Heap.
Context {T : Type}.
Implicit Types (h : heap T) (vs : list (option (data T * layout))) (v : list T).

Lemma handles_app vs ws p : handles (vs ++ ws) p = handles vs p + handles ws p.
Proof. induction vs as [|v vs IH]; cbn [app handles]; lia. Qed.
Lemma handles_upd vs i w p x : nth_error vs i = Some x ->
  handles (upd vs i w) p + (if points p x then 1 else 0) = handles vs p + (if points p w then 1 else 0).
Proof. revert i; induction vs as [|v vs IH]; intros [|i] H; try discriminate; cbn [upd handles nth_error] in *.
  - injection H as ->. lia.
  - specialize (IH i H). lia. Qed.
Lemma handles_one vs i p x : nth_error vs i = Some x -> points p x = true -> 1 <= handles vs p.
Proof. revert i; induction vs as [|v vs IH]; intros [|i] H Q; try discriminate; cbn [nth_error handles] in *.
  - injection H as ->. rewrite Q. lia.
  - specialize (IH i H Q). lia. Qed.
Lemma handles_two vs i j p x y : nth_error vs i = Some x -> nth_error vs j = Some y -> i <> j -> points p x = true -> points p y = true -> 2 <= handles vs p.
Proof. revert i j; induction vs as [|v vs IH]; intros [|i] [|j] H H' N Q Q'; try discriminate; try congruence; cbn [nth_error handles] in *.
  - injection H as ->. rewrite Q. pose proof (handles_one vs j p y H' Q'). lia.
  - injection H' as ->. rewrite Q'. pose proof (handles_one vs i p x H Q). lia.
  - assert (i <> j) by congruence. specialize (IH i j H H'). lia. Qed.
Lemma handles_find vs p : 1 <= handles vs p -> exists i x, nth_error vs i = Some x /\ points p x = true.
Proof. induction vs as [|v vs IH]; cbn [handles]; [lia|]. intro H. destruct (points p v) eqn:E; [exists 0, v; auto|]. destruct IH as (i & x & Hx); [lia|]. exists (S i), x. auto. Qed.
Lemma handles_other vs i p x : nth_error vs i = Some x -> points p x = true -> 2 <= handles vs p -> exists j y, j <> i /\ nth_error vs j = Some y /\ points p y = true.
Proof. revert i; induction vs as [|v vs IH]; intros [|i] H Q L; try discriminate; cbn [nth_error handles] in *.
  - injection H as ->. rewrite Q in L. destruct (handles_find vs p) as (j & y & H1 & H2); [lia|]. exists (S j), y. auto.
  - destruct (points p v) eqn:E; [exists 0, v; auto|]. destruct (IH i H Q L) as (j & y & N & H1 & H2). exists (S j), y. auto. Qed.

(** ** one heap operation *)
Lemma count_in h p : arc_count h p <> 0 -> p < length h.
Proof. unfold arc_count. intro H. apply nth_error_Some. destruct (nth_error h p); congruence. Qed.
Lemma new_count h v p : arc_count (fst (arc_new h v)) p = if p =? length h then 1 else arc_count h p.
Proof. unfold arc_new, arc_count. cbn [fst]. destruct (Nat.eqb_spec p (length h)) as [->|N]; [now rewrite nth_error_app2, Nat.sub_diag by lia|].
  destruct (Nat.lt_ge_cases p (length h)); [now rewrite nth_error_app1|]. rewrite (proj2 (nth_error_None _ _)); [|rewrite app_length; cbn; lia]. now rewrite (proj2 (nth_error_None _ _)) by lia. Qed.
Lemma new_get h v p : p < length h -> arc_get (fst (arc_new h v)) p = arc_get h p.
Proof. intro H. unfold arc_new, arc_get. cbn [fst]. now rewrite nth_error_app1. Qed.
Lemma new_get_eq h v : arc_get (fst (arc_new h v)) (length h) = v.
Proof. unfold arc_new, arc_get. cbn [fst]. now rewrite nth_error_app2, Nat.sub_diag by lia. Qed.
Lemma clone_count h p q : p < length h -> arc_count (arc_clone h p) q = if q =? p then S (arc_count h q) else arc_count h q.
Proof. intro H. unfold arc_clone, arc_count. destruct (nth_error h p) as [[v n]|] eqn:E; [|apply nth_error_None in E; lia].
  destruct (Nat.eqb_spec q p) as [->|N]; [now rewrite nth_error_upd_eq, E|now rewrite nth_error_upd_neq by congruence]. Qed.
Lemma clone_get h p q : arc_get (arc_clone h p) q = arc_get h q.
Proof. unfold arc_clone, arc_get. destruct (nth_error h p) as [[v n]|] eqn:E; auto. destruct (Nat.eq_dec q p) as [->|N]; [|now rewrite nth_error_upd_neq by congruence].
  rewrite nth_error_upd_eq, E; auto. apply nth_error_Some. congruence. Qed.
Lemma drop_count h p q : arc_count (arc_drop h p) q = if q =? p then arc_count h q - 1 else arc_count h q.
Proof. unfold arc_drop, arc_count. destruct (nth_error h p) as [[v n]|] eqn:E.
  - destruct (Nat.eqb_spec q p) as [->|N]; [|now rewrite nth_error_upd_neq by congruence]. rewrite nth_error_upd_eq, E; auto. apply nth_error_Some. congruence.
  - destruct (Nat.eqb_spec q p) as [->|N]; auto. now rewrite E. Qed.
Lemma drop_get h p q : arc_get (arc_drop h p) q = arc_get h q.
Proof. unfold arc_drop, arc_get. destruct (nth_error h p) as [[v n]|] eqn:E; auto. destruct (Nat.eq_dec q p) as [->|N]; [|now rewrite nth_error_upd_neq by congruence].
  rewrite nth_error_upd_eq, E; auto. apply nth_error_Some. congruence. Qed.
Lemma drop_length h p : length (arc_drop h p) = length h.
Proof. unfold arc_drop. destruct (nth_error h p) as [[v n]|]; auto. apply upd_length. Qed.
Lemma set_count h p v q : arc_count (arc_set h p v) q = arc_count h q.
Proof. unfold arc_set, arc_count. destruct (nth_error h p) as [[w n]|] eqn:E; auto. destruct (Nat.eq_dec q p) as [->|N]; [|now rewrite nth_error_upd_neq by congruence].
  rewrite nth_error_upd_eq, E; auto. apply nth_error_Some. congruence. Qed.
Lemma set_get h p v q : arc_get (arc_set h p v) q = if (q =? p) && (p <? length h) then v else arc_get h q.
Proof. unfold arc_set, arc_get. destruct (nth_error h p) as [[w n]|] eqn:E.
  - assert (L : p < length h) by (apply nth_error_Some; congruence). rewrite (proj2 (Nat.ltb_lt _ _) L), andb_true_r. destruct (Nat.eqb_spec q p) as [->|N]; [now rewrite nth_error_upd_eq|now rewrite nth_error_upd_neq by congruence].
  - apply nth_error_None in E. now rewrite (proj2 (Nat.ltb_ge _ _) E), andb_false_r. Qed.

(** ** storage operations that consume or rewrite the handle of variable [i] *)
Definition owns (d : data T) (p : nat) : nat := match d with DArc q => if q =? p then 1 else 0 | DOwned _ => 0 end.
Lemma points_owns d l p : (if points p (Some (d, l)) then 1 else 0) = owns d p.
Proof. destruct d; reflexivity. Qed.

(** [h'] can replace [h] when a handle [d] turns into [d'], with [Keep] the buffers read by others *)
Definition moved h d h' d' : Prop :=
  (forall p, arc_count h' p + owns d p = arc_count h p + owns d' p) /\
  (forall p, owns d p < arc_count h p -> arc_get h' p = arc_get h p).

Lemma owned_drop_moved h d v : (forall p, owns d p <= arc_count h p) -> moved h d (data_drop h d) (DOwned v).
Proof. intro L. destruct d as [w|q]; cbn [data_drop]; split; intro p; auto.
  - specialize (L p). rewrite drop_count. cbn [owns] in *. rewrite (Nat.eqb_sym q p) in *. destruct (p =? q); lia.
  - intros _. apply drop_get. Qed.
Lemma into_owned_moved h d h' d' : data_into_owned h d = Ok (h', d') -> moved h d h' d' /\ data_raw h' d' = data_raw h d.
Proof. destruct d as [w|q]; cbn [data_into_owned].
  - intro E. injection E as <- <-. split; [split; auto|reflexivity].
  - unfold arc_try_unwrap. destruct (Nat.eqb_spec (arc_count h q) 1) as [E|E]; intro H; [|discriminate]. injection H as <- <-. split; [|reflexivity]. split; intro p.
    + rewrite drop_count. cbn [owns]. destruct (Nat.eqb_spec q p) as [->|]; [|rewrite (proj2 (Nat.eqb_neq p q)); lia]. rewrite Nat.eqb_refl. lia.
    + intros _. apply drop_get. Qed.
Lemma into_owned_panic h d : data_into_owned h d <> Panic <-> (match d with DOwned _ => True | DArc q => arc_count h q = 1 end).
Proof. destruct d as [w|q]; cbn [data_into_owned]; [split; [auto|discriminate]|]. unfold arc_try_unwrap. destruct (Nat.eqb_spec (arc_count h q) 1); split; intro H; auto; try discriminate; congruence. Qed.
Lemma into_owned_no_err h d e : data_into_owned h d <> Err e.
Proof. destruct d as [w|q]; cbn [data_into_owned]; [discriminate|]. unfold arc_try_unwrap. destruct (_ =? _); discriminate. Qed.
Lemma count_out h p : length h <= p -> arc_count h p = 0.
Proof. intro H. unfold arc_count. now rewrite (proj2 (nth_error_None h p)). Qed.
Lemma into_shared_moved h d : let r := data_into_shared h d in moved h d (fst r) (snd r) /\ data_raw (fst r) (snd r) = data_raw h d.
Proof. destruct d as [w|q]; cbn [data_into_shared].
  - change (arc_new h w) with (fst (arc_new h w), length h). cbn [fst snd]. split; [split; intro p|apply new_get_eq].
    + rewrite new_count. cbn [owns]. rewrite (Nat.eqb_sym (length h)). destruct (Nat.eqb_spec p (length h)) as [->|]; [rewrite count_out by lia|]; lia.
    + intro H. apply new_get, count_in. lia.
  - split; [split; auto|reflexivity]. Qed.
Lemma write_moved h d f : (forall p, owns d p <= arc_count h p) -> let r := data_write h d f in moved h d (fst r) (snd r) /\ data_raw (fst r) (snd r) = f (data_raw h d).
Proof. intro L. destruct d as [w|q]; cbn [data_write].
  - split; [split; auto|reflexivity].
  - specialize (L q). cbn [owns] in L. rewrite Nat.eqb_refl in L. unfold arc_make_mut. destruct (Nat.eqb_spec (arc_count h q) 1) as [E|E].
    + cbn [fst snd data_raw]. assert (Q : q < length h) by (apply count_in; lia). split; [split; intro p|].
      * now rewrite set_count.
      * intro H. rewrite set_get. cbn [owns] in H. destruct (Nat.eqb_spec p q) as [->|]; [rewrite Nat.eqb_refl in H; lia|reflexivity].
      * rewrite set_get, Nat.eqb_refl, (proj2 (Nat.ltb_lt _ _) Q). reflexivity.
    + change (arc_new (arc_drop h q) (arc_get h q)) with (fst (arc_new (arc_drop h q) (arc_get h q)), length (arc_drop h q)). set (h1 := arc_drop h q). cbn [fst snd data_raw].
      set (h2 := fst (arc_new h1 (arc_get h q))). assert (L1 : length h1 = length h) by apply drop_length. assert (L2 : length h2 = S (length h)). { unfold h2, arc_new. cbn [fst]. rewrite app_length. cbn [length]. lia. } assert (Q : q < length h) by (apply count_in; lia).
      split; [split; intro p|].
      * rewrite set_count. unfold h2. rewrite new_count. unfold h1 at 2. rewrite drop_count, L1. cbn [owns]. rewrite (Nat.eqb_sym q p), (Nat.eqb_sym (length h) p).
        destruct (Nat.eqb_spec p (length h)) as [->|N]; [rewrite count_out by lia; rewrite (proj2 (Nat.eqb_neq (length h) q)); lia|]. destruct (Nat.eqb_spec p q) as [->|]; lia.
      * intro H. rewrite set_get. assert (P : p < length h) by (apply count_in; lia). rewrite L1, (proj2 (Nat.eqb_neq p (length h))) by lia. cbn [andb]. unfold h2. rewrite new_get by lia. apply drop_get.
      * rewrite set_get, Nat.eqb_refl, L1, L2, (proj2 (Nat.ltb_lt _ _)) by lia. cbn [andb]. f_equal. unfold h2. rewrite <- L1. apply new_get_eq. Qed.
Lemma moved_trans h d h1 d1 h2 d2 : moved h d h1 d1 -> (forall p, owns d1 p = 0) -> moved h1 d1 h2 d2 -> moved h d h2 d2.
Proof. intros [A B] Z [C D]. split; intro p; specialize (A p); specialize (B p); specialize (C p); specialize (D p); specialize (Z p); [lia|]. intro H. rewrite D by lia. apply B. lia. Qed.

(** ** variables *)
Lemma counted_owns (s : store T) i d l : counted s -> nth_error (s_vars s) i = Some (Some (d, l)) -> forall p, owns d p <= arc_count (s_heap s) p.
Proof. intros C H p. rewrite C. destruct d as [w|q]; cbn [owns]; [lia|]. destruct (Nat.eqb_spec q p) as [->|]; [|lia]. eapply handles_one; eauto. cbn. apply Nat.eqb_refl. Qed.
Lemma counted_other (s : store T) i j d l d' l' : counted s -> nth_error (s_vars s) i = Some (Some (d, l)) -> nth_error (s_vars s) j = Some (Some (d', l')) -> i <> j ->
  match d' with DArc p => owns d p < arc_count (s_heap s) p | DOwned _ => True end.
Proof. intros C H H' N. destruct d' as [w|p]; auto. rewrite C. assert (P : points p (Some (DArc (T := T) p, l')) = true) by (cbn; apply Nat.eqb_refl). pose proof (handles_one _ _ p _ H' P) as H1.
  destruct d as [w|q]; cbn [owns]; [lia|]. destruct (Nat.eqb_spec q p) as [->|]; [|lia]. eapply handles_two; [exact H|exact H'|exact N| |exact P]. cbn. apply Nat.eqb_refl. Qed.
Lemma put_ok s i d l h' d' l' : counted s -> nth_error (s_vars s) i = Some (Some (d, l)) -> moved (s_heap s) d h' d' ->
  let s' := put h' (s_vars s) i d' l' in
  counted s' /\ length (s_vars s') = length (s_vars s) /\ value s' i = Some (mkTensor (data_raw h' d') l') /\ forall j, j <> i -> value s' j = value s j.
Proof. intros C H [A B] s'. assert (L : i < length (s_vars s)) by (apply nth_error_Some; congruence). unfold s', put. cbn [s_vars]. split; [|split; [apply upd_length|split]].
  - intro p. cbn [s_heap s_vars]. pose proof (handles_upd (s_vars s) i (Some (d', l')) p _ H) as U. rewrite !points_owns in U. specialize (A p). specialize (C p). lia.
  - unfold value. cbn [s_vars s_heap]. now rewrite nth_error_upd_eq.
  - intros j N. unfold value. cbn [s_vars s_heap]. rewrite nth_error_upd_neq by congruence. destruct (nth_error (s_vars s) j) as [[[e le]|]|] eqn:E; auto. f_equal. f_equal.
    assert (N' : i <> j) by congruence. pose proof (counted_other s i j _ _ _ _ C H E N') as K. destruct e as [w|p]; cbn [data_raw]; auto. Qed.
Lemma value_lookup (s : store T) i t : value s i = Some t -> exists d, nth_error (s_vars s) i = Some (Some (d, t_layout t)) /\ t_data t = data_raw (s_heap s) d.
Proof. unfold value. destruct (nth_error _ _) as [[[d l]|]|]; try discriminate. intro E. injection E as <-. exists d. auto. Qed.

(** ** one statement *)
Definition fresh_var (o : op T) : nat := match acts_on o with None => 1 | Some _ => 0 end.

Lemma push_ok s h' d l : counted s -> (forall p, arc_count h' p = arc_count (s_heap s) p + owns d p) -> (forall p, arc_count (s_heap s) p <> 0 -> arc_get h' p = arc_get (s_heap s) p) ->
  let s' := push h' (s_vars s) d l in
  counted s' /\ length (s_vars s') = length (s_vars s) + 1 /\ value s' (length (s_vars s)) = Some (mkTensor (data_raw h' d) l) /\ forall j, j < length (s_vars s) -> value s' j = value s j.
Proof. intros C A B s'. unfold s', push. cbn [s_vars]. split; [|split; [rewrite app_length; reflexivity|split]].
  - intro p. cbn [s_heap s_vars]. rewrite handles_app. cbn [handles]. rewrite points_owns, A, C. lia.
  - unfold value. cbn [s_vars s_heap]. rewrite nth_error_app2, Nat.sub_diag by lia. reflexivity.
  - intros j N. unfold value. cbn [s_vars s_heap]. rewrite nth_error_app1 by lia. destruct (nth_error (s_vars s) j) as [[[e le]|]|] eqn:E; auto. f_equal. f_equal.
    pose proof (counted_owns s j _ _ C E) as K. destruct e as [w|p]; cbn [data_raw]; auto. apply B. specialize (K p). cbn [owns] in K. rewrite Nat.eqb_refl in K. lia. Qed.

Lemma step_ok k dflt s o s' : counted s -> step k dflt s o = Ok s' ->
  counted s' /\ length (s_vars s') = length (s_vars s) + fresh_var o /\ forall j, j < length (s_vars s) -> acts_on o <> Some j -> value s' j = value s j.
Proof. intros C. unfold fresh_var. destruct o as [v l|i l|i|i f|i|i|i|i]; cbn [step acts_on]; intro E.
  - destruct (tensor_new v l) as [t|e|]; try discriminate. cbn [bind] in E. injection E as <-. destruct (push_ok s (s_heap s) (DOwned (t_data t)) (t_layout t) C) as (H1 & H2 & _ & H3); auto.
  - destruct (nth_error (s_vars s) i) as [[[d l0]|]|] eqn:Ei; try discriminate. destruct d as [w|p]; try discriminate. destruct (tensor_new _ l) as [t|e|]; try discriminate. cbn [bind] in E. injection E as <-.
    pose proof (counted_owns s i _ _ C Ei p) as K. cbn [owns] in K. rewrite Nat.eqb_refl in K. assert (P : p < length (s_heap s)) by (apply count_in; lia).
    destruct (push_ok s (arc_clone (s_heap s) p) (DArc p) (t_layout t) C) as (H1 & H2 & _ & H3); auto.
    + intro q. rewrite clone_count by auto. cbn [owns]. rewrite (Nat.eqb_sym p q). destruct (q =? p); lia.
    + intros q _. apply clone_get.
  - destruct (nth_error (s_vars s) i) as [[[d l0]|]|] eqn:Ei; try discriminate. destruct (into_owned _ _ _) as [c|e|]; try discriminate. cbn [bind] in E. injection E as <-.
    destruct (push_ok s (s_heap s) (DOwned (t_data c)) (t_layout c) C) as (H1 & H2 & _ & H3); auto.
  - destruct (nth_error (s_vars s) i) as [[[d l]|]|] eqn:Ei; try discriminate. destruct (write_moved (s_heap s) d (fun v => f (mkTensor v l)) (counted_owns s i _ _ C Ei)) as [M _]. destruct (data_write _ _ _) as [h' d']. cbn [fst snd] in M. injection E as <-.
    destruct (put_ok s i d l h' d' l C Ei M) as (H1 & H2 & _ & H3). split; auto. split; [lia|]. intros j _ N. apply H3. congruence.
  - destruct (nth_error (s_vars s) i) as [[[d l]|]|] eqn:Ei; try discriminate. unfold step_into_owned in E. destruct (keeps_layout _) as [[]|e|]; try discriminate; cbn [bind] in E.
    + destruct (data_into_owned (s_heap s) d) as [[h' d']|e|] eqn:Ed; try discriminate. cbn [bind] in E. injection E as <-. apply into_owned_moved in Ed as [M _].
      destruct (put_ok s i d l h' d' l C Ei M) as (H1 & H2 & _ & H3). split; auto. split; [lia|]. intros j _ N. apply H3. congruence.
    + destruct (unwrap _) as [c|e|]; try discriminate. cbn [bind] in E. injection E as <-.
      destruct (put_ok s i d l _ _ (t_layout c) C Ei (owned_drop_moved _ _ (t_data c) (counted_owns s i _ _ C Ei))) as (H1 & H2 & _ & H3). split; auto. split; [lia|]. intros j _ N. apply H3. congruence.
  - destruct (nth_error (s_vars s) i) as [[[d l]|]|] eqn:Ei; try discriminate. unfold step_into_shared in E. destruct (keeps_layout _) as [[]|e|]; try discriminate; cbn [bind] in E.
    + destruct (into_shared_moved (s_heap s) d) as [M _]. destruct (data_into_shared (s_heap s) d) as [h' d']. cbn [fst snd] in M. injection E as <-.
      destruct (put_ok s i d l h' d' l C Ei M) as (H1 & H2 & _ & H3). split; auto. split; [lia|]. intros j _ N. apply H3. congruence.
    + destruct (unwrap _) as [c|e|]; try discriminate. cbn [bind] in E. destruct (keeps_layout c) as [[]|e|]; try discriminate; cbn [bind] in E.
      destruct (into_shared_moved (data_drop (s_heap s) d) (DOwned (t_data c))) as [M _]. destruct (data_into_shared (data_drop (s_heap s) d) (DOwned (t_data c))) as [h' d']. cbn [fst snd] in M. injection E as <-.
      assert (M' : moved (s_heap s) d h' d'). { eapply moved_trans; [apply owned_drop_moved, (counted_owns s i _ _ C Ei)| |exact M]. reflexivity. }
      destruct (put_ok s i d l h' d' (t_layout c) C Ei M') as (H1 & H2 & _ & H3). split; auto. split; [lia|]. intros j _ N. apply H3. congruence.
  - destruct (nth_error (s_vars s) i) as [[[d l]|]|] eqn:Ei; try discriminate. destruct (data_into_owned (s_heap s) d) as [[h' d']|e|] eqn:Ed; try discriminate. cbn [bind] in E. injection E as <-. apply into_owned_moved in Ed as [M _].
    destruct (put_ok s i d l h' d' l C Ei M) as (H1 & H2 & _ & H3). split; auto. split; [lia|]. intros j _ N. apply H3. congruence.
  - destruct (nth_error (s_vars s) i) as [[[d l]|]|] eqn:Ei; try discriminate. injection E as <-. assert (M := owned_drop_moved (s_heap s) d [] (counted_owns s i _ _ C Ei)).
    destruct (put_ok s i d l _ _ l C Ei M) as (H1 & H2 & _ & H3). cbn [s_vars]. split; [|split; [rewrite upd_length; lia|]].
    + intro p. specialize (H1 p). unfold put in H1. cbn [s_heap s_vars] in *. rewrite H1. pose proof (handles_upd (s_vars s) i (Some (DOwned (T := T) [], l)) p _ Ei) as U1. pose proof (handles_upd (s_vars s) i None p _ Ei) as U2. cbn [points] in U1, U2. lia.
    + intros j _ N. assert (N' : i <> j) by congruence. specialize (H3 j (not_eq_sym N')). rewrite <- H3. unfold value, put. cbn [s_vars s_heap]. now rewrite !nth_error_upd_neq by auto. Qed.
Lemma run_app k dflt xs ys : run k dflt (T := T) (xs ++ ys) = let* s := run k dflt xs in fold_res (step k dflt) ys s.
Proof. unfold run. generalize (mkStore (T := T) [] []). induction xs as [|x xs IH]; intro s; cbn [app fold_res]; auto. destruct (step k dflt s x); cbn [bind]; auto. Qed.
Lemma run_counted k dflt ops s : run k dflt (T := T) ops = Ok s -> counted s.
Proof. unfold run. assert (C : counted (mkStore (T := T) [] [])). { intro p. cbn. unfold arc_count. now rewrite (proj2 (nth_error_None _ _)) by (cbn; lia). }
  revert C. generalize (mkStore (T := T) [] []). induction ops as [|o ops IH]; intros s0 C; cbn [fold_res]; [intro E; injection E as <-; exact C|]. destruct (step k dflt s0 o) as [s1|e|] eqn:E; try discriminate. cbn [bind]. destruct (step_ok k dflt s0 o s1 C E) as (C1 & _). apply IH. exact C1. Qed.
End Heap.
