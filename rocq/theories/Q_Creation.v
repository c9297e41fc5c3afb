(** Lemmas behind C47 and C58. *)
From Coq Require Import QArith.
From Verif Require Import Base Spec Spec_Concat Spec_Creation P_Index P_List M_Layout M_Rearr M_Iter M_Kernel M_Tensor M_Matmul M_Concat M_Creation P_Layout P_Bounds P_Contig P_Strides P_Iter P_Rearr Q_Rearr P_Kernel Q_Kernel P_Tensor Q_Tensor P_Tri3 P_Creation.
Local Open Scope Z_scope.

(** ** eye *)
Lemma eye_core {T} (zero one : T) m n k o : diag_ok m n k -> let l := new_contig Fixed [m; n] 0 o in
  exists d, (let* ld := diagonal l (Some k) (Some 0) (Some 1) in fill Fixed (fun x => x) (repeat zero (l_size l)) ld one) = Ok d /\ tensor_ok (mkTensor d l) /\
    forall i j, (i < m)%nat -> (j < n)%nat -> at_ (mkTensor d l) [i; j] = Some (if Z.of_nat j - Z.of_nat i =? k then one else zero).
Proof. intros K l. destruct (contig_facts Fixed [m; n] o) as (G & J & Cv & Sh & O). fold l in G, J, Cv, Sh, O. destruct (diag2 l m n k G Sh K) as (ld & -> & Gd & Sd & A). cbn [bind].
  assert (Ls : l_size l = size [m; n]) by (unfold l_size; now rewrite Sh). rewrite Ls. pose proof (covers_inside _ _ Cv) as I.
  pose proof (accepted_distinct ld Gd) as D. pose proof Gd as (Wd & Nd & _).
  destruct (op1_kernel Fixed (S contig_switch) (repeat zero (size [m; n])) ld (fun _ => one)) as (d & E & U & H); auto; [lia| |].
  { intros jx V. rewrite Sd in V. apply valid1_inv in V as (p & -> & Hp). rewrite A by auto. rewrite repeat_length. apply I. rewrite Sh. apply valid2. unfold diag_len in Hp. lia. }
  exists d. split; [exact E|]. split.
  - apply tensor_ok_good. split; auto. cbn [t_layout t_data]. destruct U as [-> _]. now rewrite repeat_length.
  - intros i j Hi Hj. unfold at_. cbn [t_layout t_data]. rewrite (diag_written l ld m n k _ d (fun _ => one) G J Sh Sd A U); auto.
    2:{ intros p Hp. destruct (H [p]) as (x & _ & Ex); [rewrite Sd; now apply valid1|exact Ex]. }
    destruct (_ =? _); auto. unfold elem. apply peek_repeat. apply I. rewrite Sh. now apply valid2. Qed.
Lemma l_eye : forall (T : Type) (zero one : T) n m k o, o = RowMajor \/ n = m -> diag_ok n m k ->
  exists r, eye_f zero one n m k o = Ok r /\ tensor_ok r /\ t_shape r = [n; m] /\
    forall i j, (i < n)%nat -> (j < m)%nat -> at_ r [i; j] = Some (if Z.of_nat j - Z.of_nat i =? k then one else zero).
Proof. intros T zero one n m k o Ho K. unfold eye_f. assert (E : (match o with RowMajor => new_contig Fixed [n; m] 0 RowMajor | ColMajor => new_contig Fixed [m; n] 0 ColMajor end) = new_contig Fixed [n; m] 0 o) by (destruct Ho as [Ho|Ho]; subst; [reflexivity|destruct o; reflexivity]).
  rewrite E. cbv zeta. destruct (eye_core zero one n m k o K) as (d & Ed & Kd & H). cbv zeta in Ed. apply bind_ok in Ed as (ld & -> & Ef). cbn [bind]. rewrite Ef. cbn [bind]. eexists. split; [reflexivity|]. split; auto. split; auto. apply (contig_facts Fixed [n; m] o). Qed.
Lemma l_eye_column_refuted : forall (T : Type) (zero one : T) n m k, n <> m -> diag_ok m n k ->
  exists r, eye_f zero one n m k ColMajor = Ok r /\ t_shape r = [m; n] /\ t_shape r <> [n; m].
Proof. intros T zero one n m k N K. unfold eye_f. cbv zeta. destruct (eye_core zero one m n k ColMajor K) as (d & Ed & Kd & H). cbv zeta in Ed. apply bind_ok in Ed as (ld & -> & Ef). cbn [bind]. rewrite Ef. cbn [bind]. eexists. split; [reflexivity|]. split; [apply (contig_facts Fixed [m; n] ColMajor)|].
  unfold t_shape. cbn [t_layout]. rewrite (proj1 (proj2 (proj2 (proj2 (contig_facts Fixed [m; n] ColMajor))))). intro E. injection E. intros. congruence. Qed.
Lemma fold_cell1 {C} (f : C -> C) ps (c c' : list C) : fold_res (fun s z => cell1 f s [z]) ps c = Ok c' -> Forall (fun z => 0 <= z < Z.of_nat (length c)) ps.
Proof. revert c. induction ps as [|z ps IH]; intros c H; [constructor|]. cbn [fold_res] in H. apply bind_ok in H as (c1 & H1 & H2). cbn [cell1] in H1. apply bind_ok in H1 as (x & H1 & H3).
  assert (B : 0 <= z < Z.of_nat (length c)). { unfold zget, vget in H1. destruct (z <? 0) eqn:Ez; [discriminate|]. destruct (nth_error c (Z.to_nat z)) eqn:En; [|discriminate]. assert (Hn : nth_error c (Z.to_nat z) <> None) by congruence. apply nth_error_Some in Hn. lia. }
  constructor; auto. assert (L : length c1 = length c). { unfold zset in H3. replace (z <? 0) with false in H3 by lia. unfold vset in H3. destruct (_ <? _)%nat; [|discriminate]. injection H3 as <-. apply upd_length. }
  rewrite <- L. eapply IH; eauto. Qed.
Lemma fill_outside big d : (100 < big)%nat -> fill Fixed (fun x : Z => x) (repeat 0 10) (mkLayout [big] [3] 3) 1 <> Ok d.
Proof. intros Hb H2. assert (G : good (mkLayout [big] [3] 3)). { apply good_1d; [|lia]. intros ix V. apply valid1_inv in V as (p & -> & Hp). unfold addr. cbn [l_offset l_stride dot]. lia. }
  pose proof (accepted_distinct _ G) as D. destruct G as (W & N & _). unfold fill in H2. destruct (single_kernel_ok Fixed (S contig_switch) (mkLayout [big] [3] 3) (cell1 (fun _ : Z => 1)) (repeat 0 10)) as (ps & _ & Q & E); auto; [lia|].
  rewrite E in H2. apply fold_cell1 in H2. rewrite Forall_forall in H2. assert (I : In 63 ps). { apply Q. exists [20%nat]. split; [apply valid1; lia|reflexivity]. } apply H2 in I. cbn in I. lia. Qed.
Lemma tall_diag : diagonal (mkLayout [5; 2]%nat [2; 1] 0) (Some 3) (Some 0) (Some 1) = Ok (mkLayout [Z.to_nat (2 ^ 64 - 1)] [3] 3).
Proof. rewrite <- layout_new_1d by lia. reflexivity. Qed.
Lemma big_enough : (100 < Z.to_nat (2 ^ 64 - 1))%nat.
Proof. apply Nat2Z.inj_lt. rewrite Z2Nat.id by lia. reflexivity. Qed.
Lemma eye_parts {T} (zero one : T) n m k l ld r : l = new_contig Fixed [n; m] 0 RowMajor -> diagonal l (Some k) (Some 0) (Some 1) = Ok ld -> eye_f zero one n m k RowMajor = Ok r -> exists d, fill Fixed (fun x => x) (repeat zero (l_size l)) ld one = Ok d.
Proof. intros -> E H. unfold eye_f in H. cbv zeta in H. rewrite E in H. cbn [bind] in H. apply bind_ok in H as (d & H & _). eauto. Qed.
Lemma l_eye_offset_refuted : (exists r : tensor Z, eye_f 0 1 2 5 3 RowMajor = Ok r /\ at_ r [0; 3]%nat = Some 0) /\ (forall r : tensor Z, eye_f 0 1 5 2 3 RowMajor <> Ok r).
Proof. split; [eexists; split; vm_compute; reflexivity|]. intros r H. destruct (eye_parts 0 1 5 2 3 (mkLayout [5; 2]%nat [2; 1] 0) _ r eq_refl tall_diag H) as (d & E). exact (fill_outside _ d big_enough E). Qed.

(** ** diag *)
Lemma l_diag_vector : forall (T : Type) (dflt : T) o (t : tensor T) n k, tensor_ok t -> t_shape t = [n] ->
  exists r, diag_f dflt o t k = Ok r /\ tensor_ok r /\ let N := (n + Z.abs_nat k)%nat in t_shape r = [N; N] /\
    forall i j, (i < N)%nat -> (j < N)%nat -> at_ r [i; j] = if Z.of_nat j - Z.of_nat i =? k then at_ t [Nat.min i j] else Some dflt.
Proof. intros T dflt o t n k Kt St. apply tensor_ok_good in Kt as [Gt It]. unfold diag_f, ndim. fold (t_shape t). rewrite St. cbn [length]. cbv zeta. replace (l_size (t_layout t) + Z.to_nat (Z.abs k))%nat with (n + Z.abs_nat k)%nat by (unfold l_size; fold (t_shape t); rewrite St; cbn; lia). set (N := (n + Z.abs_nat k)%nat).
  destruct (contig_facts Fixed [N; N] o) as (G & J & Cv & Sh & O). set (l := new_contig Fixed [N; N] 0 o) in *.
  destruct (diag2 l N N k G Sh) as (ld & -> & Gd & Sd & A). { split; lia. } cbn [bind]. assert (Ln : diag_len N N k = n) by (unfold diag_len, diag_row, diag_col, N; lia).
  assert (Ls : l_size l = size [N; N]) by (unfold l_size; now rewrite Sh). rewrite Ls. pose proof (covers_inside _ _ Cv) as I.
  destruct (op2_kernel Fixed (repeat dflt (size [N; N])) ld (t_data t) (t_layout t) (fun _ y => y) [n]) as (d & E & U & H); auto; [congruence| | |].
  { intros jx V. rewrite Sd in V. apply valid1_inv in V as (p & -> & Hp). rewrite A by auto. rewrite repeat_length. apply I. rewrite Sh. apply valid2. unfold diag_len in Hp. lia. }
  { intros i j Vi Vj Ea. rewrite Sd in Vi, Vj. apply valid1_inv in Vi as (p & -> & Hp). apply valid1_inv in Vj as (q & -> & Hq). rewrite !A in Ea by auto. apply J in Ea; [injection Ea; intros; f_equal; lia| |]; rewrite Sh; apply valid2; unfold diag_len in *; lia. }
  unfold assign. rewrite E. cbn [bind]. eexists. split; [reflexivity|]. split; [|split; [exact Sh|]].
  - apply tensor_ok_good. split; auto. cbn [t_layout t_data]. destruct U as [-> _]. now rewrite repeat_length.
  - intros i j Hi Hj. unfold at_ at 1. cbn [t_layout t_data]. destruct (Nat.eq_dec n 0) as [Z0|Z0].
    + replace (Z.of_nat j - Z.of_nat i =? k) with false by (unfold N in *; lia). destruct U as [_ U]. unfold elem. rewrite U; [apply peek_repeat; apply I; rewrite Sh; now apply valid2|]. intros jx V. rewrite Sd, Ln in V. apply valid1_inv in V as (p & -> & Hp). lia.
    + assert (X : exists y0, at_ t [0%nat] = Some y0). { apply (elem_inside (t_data t) (t_layout t)); auto. fold (t_shape t). rewrite St. apply valid1. lia. } destruct X as (y0 & _).
      rewrite (diag_written l ld N N k _ d (fun p => match at_ t [p] with Some y => y | None => y0 end) G J Sh Sd A U).
      * destruct (Z.eqb_spec (Z.of_nat j - Z.of_nat i) k); [|unfold elem; apply peek_repeat; apply I; rewrite Sh; now apply valid2].
        destruct (elem_inside (t_data t) (t_layout t) [Nat.min i j]) as (y & Ey); auto; [fold (t_shape t); rewrite St; apply valid1; unfold N in *; lia|]. change (at_ t [Nat.min i j] = Some y) in Ey. now rewrite Ey.
      * intros p Hp. destruct (H [p]) as (x & y & _ & Ey & Ed); [rewrite Sd; now apply valid1|]. rewrite Ed. change (at_ t [p] = Some y) in Ey. now rewrite Ey.
      * auto.
      * auto. Qed.
Lemma l_diag_matrix : forall (T : Type) (dflt : T) o (t : tensor T) m n k, tensor_ok t -> t_shape t = [m; n] -> diag_ok m n k ->
  exists r, diag_f dflt o t k = Ok r /\ tensor_ok r /\ t_shape r = [diag_len m n k] /\
    forall p, (p < diag_len m n k)%nat -> at_ r [p] = at_ t [p + diag_row k; p + diag_col k]%nat /\ exists x, at_ r [p] = Some x.
Proof. intros T dflt o t m n k Kt St Kk. apply tensor_ok_good in Kt as [Gt It]. unfold diag_f, ndim. fold (t_shape t). rewrite St. cbn [length]. destruct (diag2 (t_layout t) m n k Gt St Kk) as (ld & -> & Gd & Sd & A). cbn [bind]. cbv zeta.
  replace (l_size ld) with (diag_len m n k) by (unfold l_size; rewrite Sd; cbn; lia). set (q := diag_len m n k) in *. destruct (contig_facts Fixed [q] o) as (G & J & Cv & Sh & O). set (l := new_contig Fixed [q] 0 o) in *.
  replace (size [q]) with q in Cv by (cbn; lia). destruct (bounds_covers l q (proj1 G) O Cv) as (lo & ->). cbn [bind snd].
  assert (Iv : forall p, (p < q)%nat -> valid (t_shape t) [p + diag_row k; p + diag_col k]%nat) by (intros p Hp; rewrite St; apply valid2; unfold q, diag_len in Hp; lia).
  destruct (op2_kernel Fixed (uninit T (Z.of_nat q)) l (t_data t) ld (fun _ y => Some y) [q]) as (c & E & U & H); auto.
  { unfold uninit. rewrite repeat_length, Nat2Z.id. now apply covers_inside. } { intros jx V. rewrite Sd in V. apply valid1_inv in V as (p & -> & Hp). rewrite A by auto. now apply It, Iv. }
  unfold assign. rewrite E. cbn [bind].
  assert (Lc : length c = q) by (destruct U as [-> _]; unfold uninit; rewrite repeat_length; lia).
  destruct (fresh_result l c (fun ix v => elem (t_data t) ld ix = Some v) G O) as (d & -> & _ & Ld & Id & Hd); [now rewrite Lc| |].
  { intros ix V. destruct (H ix V) as (x & y & _ & Ey & Ec). eauto. }
  cbn [bind]. eexists. split; [reflexivity|]. split; [apply tensor_ok_good; split; auto|]. split; [exact Sh|]. intros p Hp.
  destruct (Hd [p]) as (v & Ev & Et); [rewrite Sh; now apply valid1|]. unfold at_ at 1 3. cbn [t_layout t_data]. rewrite Ev. split; [|eauto]. rewrite <- Et. unfold at_, elem. now rewrite A. Qed.
Lemma l_diag_rank : forall (T : Type) (dflt : T) o (t : tensor T) k, length (t_shape t) <> 1%nat -> length (t_shape t) <> 2%nat -> exists e, diag_f dflt o t k = Err e.
Proof. intros T dflt o t k H1 H2. unfold diag_f, ndim. fold (t_shape t). destruct (length (t_shape t)) as [|[|[|n]]]; try lia; eauto. Qed.
(** diag of the diag of a vector is the vector *)
Lemma l_diag_diag : forall (T : Type) (dflt : T) o (t : tensor T) n k, tensor_ok t -> t_shape t = [n] ->
  exists m r, diag_f dflt o t k = Ok m /\ diag_f dflt o m k = Ok r /\ t_shape r = [n] /\ forall p, (p < n)%nat -> at_ r [p] = at_ t [p].
Proof. intros T dflt o t n k Kt St. destruct (l_diag_vector T dflt o t n k Kt St) as (m & Em & Km & Sm & Hm). set (N := (n + Z.abs_nat k)%nat) in *.
  destruct (l_diag_matrix T dflt o m N N k Km Sm) as (r & Er & _ & Sr & Hr); [split; lia|]. assert (Ln : diag_len N N k = n) by (unfold diag_len, diag_row, diag_col, N; lia). rewrite Ln in *.
  exists m, r. split; auto. split; auto. split; auto. intros p Hp. destruct (Hr p Hp) as [-> _]. rewrite Hm by (unfold diag_row, diag_col, N; lia). replace (_ =? k) with true by (unfold diag_row, diag_col; lia). do 2 f_equal. unfold diag_row, diag_col. lia. Qed.

(** ** full, zeros, ones *)
Lemma l_full_shape : forall (T : Type) k sh (x : T) o, exists r, full_shape k sh x o = Ok r /\ tensor_ok r /\ t_shape r = sh /\ all_are x r /\ length (t_data r) = size sh.
Proof. intros T k sh x o. destruct (contig_facts k sh o) as (G & J & Cv & Sh & O). unfold full_shape, full_layout. eexists. split; [reflexivity|]. set (l := new_contig k sh 0 o) in *. replace (l_size l) with (size sh) by (unfold l_size; now rewrite Sh).
  destruct (constant l x (size sh) G (covers_inside _ _ Cv)) as [K H]. split; auto. split; auto. split; [exact H|]. cbn [t_data]. apply repeat_length. Qed.
Lemma l_const_layout : forall (T : Type) (l : layout) (x : T), accepted l -> exists r, const_layout l x = Ok r /\ t_layout r = l /\ tensor_ok r /\ all_are x r.
Proof. intros T l x G. apply good_accepted in G. pose proof G as (W & N & _). pose proof N as N'. apply bounds_index_ok_iff in N' as ([lo hi] & E); auto. destruct (bounds_index_sound l lo hi W E) as (B0 & B & _).
  unfold const_layout. rewrite E. cbn [bind snd]. eexists. split; [reflexivity|]. split; auto. destruct (constant l x (Z.to_nat hi) G) as [K H]; [|split; auto]. intros ix V. specialize (B ix V). specialize (N ix V). lia. Qed.
Lemma l_const_shape : forall (T : Type) k sh (x : T) o, exists r, const_shape k sh x o = Ok r /\ tensor_ok r /\ t_shape r = sh /\ all_are x r /\ length (t_data r) = size sh.
Proof. intros T k sh x o. destruct (contig_facts k sh o) as (G & J & Cv & Sh & O). unfold const_shape, const_layout. set (l := new_contig k sh 0 o) in *. destruct (bounds_covers l _ (proj1 G) O Cv) as (lo & ->). cbn [bind snd]. rewrite Nat2Z.id. eexists. split; [reflexivity|].
  destruct (constant l x (size sh) G (covers_inside _ _ Cv)) as [K H]. split; auto. split; auto. split; [exact H|]. cbn [t_data]. apply repeat_length. Qed.
Lemma l_like : forall (T U : Type) k dflt (t : tensor U) (x : T) o, tensor_ok t -> o = OC \/ o = OF \/ o = OA \/ o = OK ->
  exists r, like k dflt t x o = Ok r /\ tensor_ok r /\ t_shape r = t_shape t /\ all_are x r /\ injective (t_layout r) /\ length (t_data r) = size (t_shape t).
Proof. intros T U k dflt t x o Kt Ho. apply tensor_ok_good in Kt as [Gt It]. unfold like. destruct (copy_layout_good k dflt (t_layout t) o Gt Ho) as (l & -> & G & O & S & J & Cv). cbn [bind]. eexists. split; [reflexivity|]. replace (l_size l) with (size (l_shape (t_layout t))) by (unfold l_size; now rewrite S).
  destruct (constant l x _ G (covers_inside _ _ Cv)) as [K H]. split; auto. split; [exact S|]. split; [exact H|]. split; auto. cbn [t_data]. apply repeat_length. Qed.
Lemma l_full_layout : forall (T : Type) (l : layout) (x : T), accepted l -> inside l (size (l_shape l)) -> exists r, full_layout l x = Ok r /\ t_layout r = l /\ tensor_ok r /\ all_are x r.
Proof. intros T l x G I. apply good_accepted in G. unfold full_layout. eexists. split; [reflexivity|]. split; auto. now apply constant. Qed.
Lemma l_full_layout_refuted : exists (l : layout) (r : tensor Z), accepted l /\ full_layout l 7 = Ok r /\ ~ tensor_ok r /\ exists ix, valid (t_shape r) ix /\ at_ r ix = None.
Proof. exists (mkLayout [3]%nat [2] 0), (mkTensor [7; 7; 7] (mkLayout [3]%nat [2] 0)). split; [apply good_accepted, (good_new [3]%nat [2] 0); [lia|vm_compute; reflexivity]|]. split; [reflexivity|]. split.
  - intros [_ I]. specialize (I [2%nat]). assert (V : valid [3%nat] [2%nat]) by (apply valid1; lia). apply I in V. unfold addr in V. cbn in V. lia.
  - exists [2%nat]. split; [apply valid1; lia|reflexivity]. Qed.

(** ** linspace *)
Local Open Scope Q_scope.
Lemma linspace_loop_length n : forall v step, length (linspace_loop n v step) = n.
Proof. induction n; intros; cbn; auto. Qed.
Lemma linspace_loop_nth n : forall v step i, (i < n)%nat -> nth i (linspace_loop n v step) 0 == v + inject_Z (Z.of_nat i) * step.
Proof. induction n as [|n IH]; intros v step i Hi; [lia|]. destruct i as [|i]; cbn [linspace_loop nth]; [change (inject_Z (Z.of_nat 0)) with 0; ring|]. rewrite IH by lia. rewrite Nat2Z.inj_succ, <- Z.add_1_l, inject_Z_plus. change (inject_Z 1) with 1. ring. Qed.
Lemma l_linspace : forall start stop n (endpoint : bool), (
  length (linspace_f start stop n endpoint) = n /\
  (forall i, (i < n)%nat -> (2 <= n)%nat -> nth i (linspace_f start stop n endpoint) 0 == start + inject_Z (Z.of_nat i) * (stop - start) / inject_Z (Z.of_nat (if endpoint then n - 1 else n))) /\
  ((1 <= n)%nat -> nth 0 (linspace_f start stop n endpoint) 0 = start) /\
  ((2 <= n)%nat -> endpoint = true -> nth (n - 1) (linspace_f start stop n endpoint) 0 == stop))%Q.
Proof. intros start stop n endpoint.
  assert (X : forall i, (i < n)%nat -> (2 <= n)%nat -> nth i (linspace_f start stop n endpoint) 0 == start + inject_Z (Z.of_nat i) * (stop - start) / inject_Z (Z.of_nat (if endpoint then n - 1 else n))).
  { intros i Hi Hn. destruct n as [|[|n]]; try lia. cbn [linspace_f]. rewrite linspace_loop_nth by auto. replace (if endpoint then Z.of_nat (S (S n)) - 1 else Z.of_nat (S (S n)))%Z with (Z.of_nat (if endpoint then S (S n) - 1 else S (S n))) by (destruct endpoint; lia). unfold Qdiv. ring. }
  split; [destruct n as [|[|n]]; try reflexivity; apply (linspace_loop_length (S (S n)))|]. split; [exact X|]. split; [destruct n as [|[|n]]; [lia|reflexivity|reflexivity]|].
  intros Hn ->. rewrite X by lia. assert (N : ~ inject_Z (Z.of_nat (n - 1)) == 0). { intro H. unfold Qeq in H. cbn [inject_Z Qnum Qden] in H. lia. } field. exact N. Qed.
Lemma l_linspace_rayon : forall start stop n (endpoint : bool), Forall2 Qeq (linspace_rayon start stop n endpoint) (linspace_f start stop n endpoint).
Proof. intros start stop n endpoint. destruct n as [|[|n]]; [constructor|repeat constructor; reflexivity|]. cbn [linspace_f linspace_rayon]. generalize ((stop - start) / inject_Z (if endpoint then Z.of_nat (S (S n)) - 1 else Z.of_nat (S (S n)))%Z). intro step. generalize (S (S n)). clear n. intro n.
  assert (X : forall a v, v == start + inject_Z (Z.of_nat a) * step -> Forall2 Qeq (map (fun i => start + inject_Z (Z.of_nat i) * step) (seq a n)) (linspace_loop n v step)).
  { induction n as [|n IH]; intros a v E; cbn [seq map linspace_loop]; constructor; [now symmetry|]. apply IH. rewrite E. rewrite Nat2Z.inj_succ, <- Z.add_1_l, inject_Z_plus. change (inject_Z 1) with 1. ring. }
  apply X. change (inject_Z (Z.of_nat 0)) with 0. ring. Qed.
