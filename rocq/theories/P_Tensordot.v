(** Proofs about the subscripts of tensordot. *)
From Coq Require Import Ascii.
From Verif Require Import Base Spec P_Index P_List M_Layout P_Layout P_Indexer P_Manip Spec_Views Spec_Tensordot M_Tensordot.
Local Open Scope nat_scope.

Lemma letters_nodup : NoDup letters.
Proof. apply (NoDup_map_inv nat_of_ascii). vm_compute. repeat constructor; cbn; intuition discriminate. Qed.
Lemma letters_length : length letters = 52.
Proof. reflexivity. Qed.
Lemma letters_letter : Forall is_letter letters.
Proof. unfold letters, is_letter. apply Forall_map, Forall_forall. intros n Hn. apply in_app_or in Hn. cbv zeta. rewrite nat_ascii_embedding by (destruct Hn as [Hn|Hn]; apply in_seq in Hn; lia). destruct Hn as [Hn|Hn]; apply in_seq in Hn; lia. Qed.

(** the labels handed out so far *)
Record labels (dn : list (nat * nat)) (used gen : list ascii) (al bl : list (option ascii)) : Prop := {
  lb_all : used ++ gen = letters;
  lb_a : forall i c, nth_error al i = Some (Some c) -> In c used;
  lb_b : forall i c, nth_error bl i = Some (Some c) -> In c used;
  lb_aa : forall i i' c, nth_error al i = Some (Some c) -> nth_error al i' = Some (Some c) -> i = i';
  lb_bb : forall i i' c, nth_error bl i = Some (Some c) -> nth_error bl i' = Some (Some c) -> i = i';
  lb_ab : forall i j c d, nth_error al i = Some (Some c) -> nth_error bl j = Some (Some d) -> (c = d <-> In (i, j) dn);
  lb_dn : forall i j, In (i, j) dn -> nth_error al i <> Some None /\ nth_error bl j <> Some None }.
Definition swap (p : nat * nat) := (snd p, fst p).
Lemma in_swap i j dn : In (i, j) (map swap dn) <-> In (j, i) dn.
Proof. rewrite in_map_iff. split. { intros ([x y] & E & H). unfold swap in E. cbn in E. now injection E as -> ->. } { intro H. exists (j, i). auto. } Qed.
Lemma labels_swap dn used gen al bl : labels dn used gen al bl -> labels (map swap dn) used gen bl al.
Proof. intros [A B C D E F G]. split; auto.
  - intros i j c d H1 H2. rewrite in_swap, <- (F j i d c H2 H1). split; congruence.
  - intros i j H. apply (proj1 (in_swap i j dn)) in H. apply G in H. tauto. Qed.
Lemma swap_swap dn : map swap (map swap dn) = dn.
Proof. rewrite map_map. rewrite <- (map_id dn) at 2. apply map_ext. now intros [x y]. Qed.
Lemma fresh used c gen : used ++ c :: gen = letters -> ~ In c used.
Proof. intros E H. pose proof letters_nodup as N. rewrite <- E in N. apply NoDup_remove_2 in N. apply N, in_or_app. auto. Qed.
Lemma new_at {A} (l : list A) i v j x : nth_error (upd l i v) j = Some x -> (j = i /\ x = v) \/ (j <> i /\ nth_error l j = Some x).
Proof. intro H. destruct (Nat.eq_dec j i) as [->|Hn].
  - left. split; auto. assert (i < length l). { assert (nth_error (upd l i v) i <> None) by congruence. apply nth_error_Some in H0. now rewrite upd_length in H0. } rewrite nth_error_upd_eq in H by auto. congruence.
  - right. split; auto. rewrite nth_error_upd_neq in H by auto. auto. Qed.
Lemma some_inj {A} (x y : A) : Some x = Some y -> x = y. Proof. congruence. Qed.

Lemma label_one dn used c gen al bl i : labels dn used (c :: gen) al bl -> nth_error al i = Some None -> labels dn (used ++ [c]) gen (upd al i (Some c)) bl.
Proof. intros [A B C D E F G] H. pose proof (fresh _ _ _ A) as Fr. split.
  - rewrite <- app_assoc. exact A.
  - intros j d Hj. apply in_or_app. apply new_at in Hj as [[-> Hj]|[_ Hj]]; [right; left; congruence|left; eauto].
  - intros j d Hj. apply in_or_app. left. eauto.
  - intros j j' d H1 H2. apply new_at in H1 as [[-> H1]|[N1 H1]]; apply new_at in H2 as [[-> H2]|[N2 H2]]; auto; [apply some_inj in H1; subst d|apply some_inj in H2; subst d|eauto]; exfalso; eauto.
  - exact E.
  - intros j k d e Hj Hk. apply new_at in Hj as [[-> Hj]|[N Hj]]; [|eauto]. apply some_inj in Hj. subst d. split; intro X; exfalso; [subst; eauto|]. apply G in X. tauto.
  - intros j k X. destruct (G j k X) as [X1 X2]. split; auto. intro Y. apply new_at in Y as [[_ Y]|[_ Y]]; [discriminate|auto]. Qed.
Lemma label_pair dn used c gen al bl i j : labels dn used (c :: gen) al bl -> nth_error al i = Some None -> nth_error bl j = Some None -> labels (dn ++ [(i, j)]) (used ++ [c]) gen (upd al i (Some c)) (upd bl j (Some c)).
Proof. intros L Hi Hj. pose proof (label_one _ _ _ _ _ _ _ L Hi) as L1. pose proof (labels_swap _ _ _ _ _ (label_one _ _ _ _ _ _ _ (labels_swap _ _ _ _ _ L) Hj)) as L2. rewrite swap_swap in L2. pose proof (fresh _ _ _ (lb_all _ _ _ _ _ L)) as Fr. split.
  - apply (lb_all _ _ _ _ _ L1).
  - apply (lb_a _ _ _ _ _ L1).
  - apply (lb_b _ _ _ _ _ L2).
  - apply (lb_aa _ _ _ _ _ L1).
  - apply (lb_bb _ _ _ _ _ L2).
  - intros i' j' d e H1 H2. rewrite in_app_iff. apply new_at in H1 as [[-> H1]|[N1 H1]]; apply new_at in H2 as [[-> H2]|[N2 H2]].
    + split; [cbn; auto|congruence].
    + apply some_inj in H1. subst d. split; intro X; exfalso. { subst e. apply Fr. eapply (lb_b _ _ _ _ _ L); eauto. } destruct X as [X|[X|[]]]; [|congruence]. apply (lb_dn _ _ _ _ _ L) in X. tauto.
    + apply some_inj in H2. subst e. split; intro X; exfalso. { subst d. apply Fr. eapply (lb_a _ _ _ _ _ L); eauto. } destruct X as [X|[X|[]]]; [|congruence]. apply (lb_dn _ _ _ _ _ L) in X. tauto.
    + rewrite (lb_ab _ _ _ _ _ L i' j' d e H1 H2). split; [auto|]. intros [X|[X|[]]]; [auto|congruence].
  - intros i' j' X. apply in_app_or in X as [X|[X|[]]].
    + split; [apply (lb_dn _ _ _ _ _ L1 i' j' X)|apply (lb_dn _ _ _ _ _ L2 i' j' X)].
    + injection X as <- <-. split; intro Y; apply new_at in Y as [[_ Y]|[N Y]]; congruence. Qed.

Lemma vset_in {A} (l : list A) i v : i < length l -> vset l i v = Ok (upd l i v).
Proof. intro H. unfold vset. replace (i <? length l) with true by lia. auto. Qed.

(** step 1 *)
Lemma pair_fold ps : forall dn used gen al bl, labels dn used gen al bl -> NoDup (map fst ps) -> NoDup (map snd ps) ->
  Forall (fun p => nth_error al (fst p) = Some None) ps -> Forall (fun p => nth_error bl (snd p) = Some None) ps ->
  (length ps <= length gen -> exists al' bl', fold_res pair_step ps (gen, al, bl) = Ok (skipn (length ps) gen, al', bl') /\ labels (dn ++ ps) (used ++ firstn (length ps) gen) (skipn (length ps) gen) al' bl' /\
     length al' = length al /\ length bl' = length bl /\ (forall i, nth_error al' i = Some None <-> nth_error al i = Some None /\ ~ In i (map fst ps)) /\ (forall i, nth_error bl' i = Some None <-> nth_error bl i = Some None /\ ~ In i (map snd ps))) /\
  (length gen < length ps -> fold_res pair_step ps (gen, al, bl) = Err InvalidValue).
Proof. induction ps as [|[i j] ps IH]; intros dn used gen al bl L N1 N2 Fa Fb.
  - split; [|cbn; lia]. intros _. exists al, bl. cbn [length skipn firstn fold_res map]. rewrite !app_nil_r. split; auto. split; auto. split; auto. split; auto. split; intro; cbn [In]; tauto.
  - inversion_clear Fa as [|? ? Hi Fa']. inversion_clear Fb as [|? ? Hj Fb']. cbn [fst snd map] in *. inversion_clear N1 as [|? ? Ni N1']. inversion_clear N2 as [|? ? Nj N2'].
    assert (Li : i < length al) by (apply nth_error_Some; congruence). assert (Lj : j < length bl) by (apply nth_error_Some; congruence).
    destruct gen as [|c gen]. { split; [cbn; lia|]. intros _. reflexivity. }
    cbn [fold_res pair_step next_label bind fst snd]. rewrite !vset_in by auto. cbn [bind]. destruct (IH (dn ++ [(i, j)]) (used ++ [c]) gen (upd al i (Some c)) (upd bl j (Some c))) as [IH1 IH2]; auto.
    + apply label_pair; auto.
    + apply Forall_forall. intros p Hp. rewrite nth_error_upd_neq; [now apply (proj1 (Forall_forall _ _) Fa')|]. intros ->. apply Ni. apply in_map. auto.
    + apply Forall_forall. intros p Hp. rewrite nth_error_upd_neq; [now apply (proj1 (Forall_forall _ _) Fb')|]. intros ->. apply Nj. apply in_map. auto.
    + cbn [length]. split; [|intro; apply IH2; lia]. intro Hl. destruct IH1 as (al' & bl' & E & L' & A1 & A2 & A3 & A4); [lia|]. exists al', bl'. cbn [skipn firstn]. rewrite upd_length in A1, A2. rewrite <- !app_assoc in L'. cbn [app] in L'. split; auto. split; auto. split; auto. split; auto. split.
      * intro x. rewrite A3. cbn [In]. split. { intros [X Y]. apply new_at in X as [[_ X]|[Nx X]]; [discriminate|]. split; auto. intros [Z|Z]; [congruence|auto]. } { intros [X Y]. split; [|tauto]. rewrite nth_error_upd_neq; auto. }
      * intro x. rewrite A4. cbn [In]. split. { intros [X Y]. apply new_at in X as [[_ X]|[Nx X]]; [discriminate|]. split; auto. intros [Z|Z]; [congruence|auto]. } { intros [X Y]. split; [|tauto]. rewrite nth_error_upd_neq; auto. } Qed.

(** steps 2 and 3 *)
Definition blank (ls : list (option ascii)) (i : nat) : bool := match nth_error ls i with Some None => true | _ => false end.
Lemma free_fold n : forall s dn used gen al bl, labels dn used gen al bl -> s + n <= length al ->
  let m := length (filter (blank al) (seq s n)) in
  (m <= length gen -> exists al', fold_res free_step (seq s n) (gen, al) = Ok (skipn m gen, al') /\ labels dn (used ++ firstn m gen) (skipn m gen) al' bl /\ length al' = length al /\
     (forall i, s <= i < s + n -> nth_error al' i <> Some None) /\ (forall i, i < s -> nth_error al' i = nth_error al i)) /\
  (length gen < m -> fold_res free_step (seq s n) (gen, al) = Err InvalidValue).
Proof. induction n as [|n IH]; intros s dn used gen al bl L Hs m.
  - subst m. cbn. split; [|lia]. intros _. exists al. rewrite app_nil_r. split; auto. split; auto. split; auto. split; auto. intros; lia.
  - subst m. cbn [seq filter fold_res]. assert (Ls : s < length al) by lia. destruct (nth_error al s) as [[c|]|] eqn:E; [| |apply nth_error_None in E; lia].
    + assert (B : blank al s = false) by (unfold blank; now rewrite E). rewrite B. cbn [free_step]. unfold vget. rewrite E. cbn [bind]. destruct (IH (S s) dn used gen al bl L) as [IH1 IH2]; [lia|]. split; [|intro; apply IH2; auto]. intro Hm. destruct (IH1 Hm) as (al' & E' & L' & A1 & A2 & A3). exists al'. split; auto. split; auto. split; auto. split; [|intros; apply A3; lia]. intros i Hi. destruct (Nat.eq_dec i s) as [->|]; [rewrite A3 by lia; congruence|apply A2; lia].
    + assert (B : blank al s = true) by (unfold blank; now rewrite E). rewrite B. cbn [length free_step]. unfold vget. rewrite E. cbn [bind]. destruct gen as [|c gen]. { split; [cbn; lia|]. reflexivity. }
      cbn [next_label bind]. rewrite vset_in by auto. cbn [bind length]. set (al1 := upd al s (Some c)). assert (Ef : filter (blank al) (seq (S s) n) = filter (blank al1) (seq (S s) n)). { apply filter_ext_in. intros i Hi. apply in_seq in Hi. unfold blank, al1. rewrite nth_error_upd_neq by lia. auto. }
      rewrite Ef. destruct (IH (S s) dn (used ++ [c]) gen al1 bl) as [IH1 IH2]. { now apply label_one. } { unfold al1. rewrite upd_length. lia. } split; [|intro; apply IH2; lia]. intro Hm. destruct IH1 as (al' & E' & L' & A1 & A2 & A3); [lia|]. exists al'. cbn [skipn firstn]. rewrite <- app_assoc in L'. unfold al1 in A1. rewrite upd_length in A1. split; auto. split; auto. split; auto. split.
      * intros i Hi. destruct (Nat.eq_dec i s) as [->|]; [|apply A2; lia]. rewrite A3 by lia. unfold al1. rewrite nth_error_upd_eq by auto. discriminate.
      * intros i Hi. rewrite A3 by lia. unfold al1. rewrite nth_error_upd_neq by lia. auto. Qed.

Lemma unwrap_all ls : (forall i, i < length ls -> nth_error ls i <> Some None) -> exists cs, map_res unwrap ls = Ok cs /\ ls = map Some cs.
Proof. induction ls as [|o ls IH]; intro H; [exists []; auto|]. destruct o as [c|]; [|exfalso; apply (H 0); [cbn; lia|auto]]. destruct IH as (cs & E & ->). { intros i Hi. apply (H (S i)). cbn. lia. } exists (c :: cs). cbn [map_res unwrap bind]. rewrite E. auto. Qed.
Lemma free_labels_ok cs p d : free_labels (length cs) p (map Some cs) = Ok (pick (axes_except (length cs) p) d cs).
Proof. unfold free_labels, axes_except, pick. apply map_res_ok. assert (H : Forall (fun i => i < length cs) (filter (fun i => negb (existsb (Nat.eqb i) p)) (seq 0 (length cs)))). { apply Forall_forall. intros i Hi. apply filter_In in Hi as [Hi _]. apply in_seq in Hi. lia. }
  induction H as [|i l Hi H IH]; constructor; auto. unfold vget. rewrite nth_error_map. rewrite (nth_error_nth' cs d Hi). reflexivity. Qed.
Lemma blank_count n p ls : length ls = n -> NoDup p -> (forall a, In a p -> a < n) -> (forall i, nth_error ls i = Some None <-> i < n /\ ~ In i p) -> length (filter (blank ls) (seq 0 n)) + length p = n.
Proof. intros Ln Np Hp H. rewrite <- (except_length n p) at 2 by auto. f_equal. unfold axes_except. f_equal. apply filter_ext_in. intros i Hi. apply in_seq in Hi. unfold blank. destruct (existsb (Nat.eqb i) p) eqn:E; cbn [negb].
  - apply existsb_exists in E as (x & Hx & E). apply Nat.eqb_eq in E. subst x. destruct (nth_error ls i) as [[c|]|] eqn:E; auto. apply H in E. tauto.
  - destruct (nth_error ls i) as [[c|]|] eqn:E2; auto; [exfalso|apply nth_error_None in E2; lia]. assert (X : nth_error ls i = Some None). { apply H. split; [lia|]. intro X. assert (existsb (Nat.eqb i) p = true) by (apply existsb_exists; exists i; split; auto; apply Nat.eqb_refl). congruence. } congruence. Qed.
Lemma combine_fst {A B} (l1 : list A) : forall l2 : list B, map fst (combine l1 l2) = firstn (Nat.min (length l1) (length l2)) l1.
Proof. induction l1 as [|x l1 IH]; intros [|y l2]; cbn; auto. f_equal. auto. Qed.
Lemma combine_snd {A B} (l1 : list A) : forall l2 : list B, map snd (combine l1 l2) = firstn (Nat.min (length l1) (length l2)) l2.
Proof. induction l1 as [|x l1 IH]; intros [|y l2]; cbn; auto. f_equal. auto. Qed.
Lemma NoDup_firstn {A} n (l : list A) : NoDup l -> NoDup (firstn n l).
Proof. revert n. induction l as [|x l IH]; intros [|n] N; cbn [firstn]; try constructor; inversion_clear N; auto. intro X. apply H. rewrite <- (firstn_skipn n l). apply in_or_app. auto. Qed.
Lemma in_firstn {A} n (l : list A) x : In x (firstn n l) -> In x l.
Proof. intro H. rewrite <- (firstn_skipn n l). apply in_or_app. auto. Qed.
Lemma nth_error_blank n i : nth_error (repeat (@None ascii) n) i = Some None <-> i < n.
Proof. split; intro H. { assert (nth_error (repeat (@None ascii) n) i <> None) as X by congruence. apply nth_error_Some in X. now rewrite repeat_length in X. } { now apply nth_error_repeat. } Qed.

Lemma labels_ok da db axes pa pb : summed_axes da db axes = Ok (pa, pb) -> NoDup pa -> NoDup pb -> (forall a, In a pa -> a < da) -> (forall a, In a pb -> a < db) ->
  let m := Nat.min (length pa) (length pb) in
  (da + db - m <= 52 -> exists la lb lo, tensordot_labels da db axes = Ok (la, lb, lo) /\ labelled da db pa pb la lb lo /\ Forall is_letter (la ++ lb ++ lo)) /\
  (52 < da + db - m -> tensordot_labels da db axes = Err InvalidValue).
Proof. intros Es Na Nb Ha Hb m. unfold tensordot_labels. rewrite Es. cbn [bind].
  assert (L0 : labels [] [] letters (repeat None da) (repeat None db)). { split; auto; intros; try match goal with X : nth_error (repeat None _) _ = Some (Some _) |- _ => apply nth_error_In, repeat_spec in X; discriminate end. }
  assert (Lc : length (combine pa pb) = m) by apply combine_length. pose proof (combine_fst pa pb) as Cf. pose proof (combine_snd pa pb) as Cs. fold m in Cf, Cs.
  assert (La : length pa <= da). { rewrite <- (seq_length da 0). apply NoDup_incl_length; auto. intros a X. apply in_seq. specialize (Ha a X). lia. } assert (Lb : length pb <= db). { rewrite <- (seq_length db 0). apply NoDup_incl_length; auto. intros a X. apply in_seq. specialize (Hb a X). lia. }
  destruct (pair_fold (combine pa pb) [] [] letters (repeat None da) (repeat None db) L0) as [P1 P2].
  { rewrite Cf. now apply NoDup_firstn. } { rewrite Cs. now apply NoDup_firstn. }
  { apply Forall_forall. intros p Hp. apply nth_error_blank, Ha. apply (in_firstn m). rewrite <- Cf. now apply in_map. } { apply Forall_forall. intros p Hp. apply nth_error_blank, Hb. apply (in_firstn m). rewrite <- Cs. now apply in_map. }
  rewrite Lc, letters_length in P1, P2. destruct (Nat.le_gt_cases m 52) as [Hm|Hm]. 2:{ rewrite P2 by auto. cbn [bind]. split; [lia|auto]. }
  destruct (P1 Hm) as (al & bl & E1 & L1 & A1 & A2 & A3 & A4). rewrite E1. cbn [bind]. cbn [app] in L1. rewrite repeat_length in A1, A2. rewrite Cf in A3. rewrite Cs in A4.
  assert (Ca : length (filter (blank al) (seq 0 da)) + m = da). { rewrite <- (firstn_length_le pa (n := m)) at 1 by lia. apply blank_count; auto. { now apply NoDup_firstn. } { intros a X. eauto using in_firstn. } intro i. rewrite A3, nth_error_blank. tauto. }
  assert (Cb : length (filter (blank bl) (seq 0 db)) + m = db). { rewrite <- (firstn_length_le pb (n := m)) at 1 by lia. apply blank_count; auto. { now apply NoDup_firstn. } { intros a X. eauto using in_firstn. } intro i. rewrite A4, nth_error_blank. tauto. }
  set (ka := length (filter (blank al) (seq 0 da))) in *. set (kb := length (filter (blank bl) (seq 0 db))) in *. assert (G1 : length (skipn m letters) = 52 - m) by (rewrite skipn_length, letters_length; auto).
  destruct (free_fold da 0 _ _ _ al bl L1) as [Q1 Q2]; [lia|]. fold ka in Q1, Q2. destruct (Nat.le_gt_cases ka (52 - m)) as [Hk|Hk]. 2:{ rewrite Q2 by lia. cbn [bind]. split; [lia|auto]. }
  destruct Q1 as (al' & E2 & L2 & B1 & B2 & _); [lia|]. rewrite E2. cbn [bind]. apply labels_swap in L2.
  destruct (free_fold db 0 _ _ _ bl al' L2) as [R1 R2]; [lia|]. fold kb in R1, R2. rewrite skipn_length, G1 in R1, R2. destruct (Nat.le_gt_cases kb (52 - m - ka)) as [Hb'|Hb']. 2:{ rewrite R2 by lia. cbn [bind]. split; [lia|auto]. }
  destruct R1 as (bl' & E3 & L3 & D1 & D2 & _); [lia|]. rewrite E3. cbn [bind]. apply labels_swap in L3. rewrite swap_swap in L3.
  destruct (unwrap_all al') as (sa & Ea & ->). { intros i Hi. apply B2. lia. } destruct (unwrap_all bl') as (sb & Eb & ->). { intros i Hi. apply D2. lia. } rewrite Ea, Eb. cbn [bind]. rewrite map_length in B1, D1.
  assert (X : da = length sa) by lia. assert (Y : db = length sb) by lia. split; [|lia]. intros _. exists sa, sb, (pick (axes_except da pa) "a"%char sa ++ pick (axes_except db pb) "a"%char sb).
  rewrite X at 1. rewrite (free_labels_ok sa pa "a"%char). cbn [bind]. rewrite Y at 1. rewrite (free_labels_ok sb pb "a"%char). cbn [bind]. rewrite <- X, <- Y. split; auto.
  assert (Va : forall i c, nth_error sa i = Some c -> nth_error (map Some sa) i = Some (Some c)) by (intros i c Hi; now rewrite nth_error_map, Hi). assert (Vb : forall i c, nth_error sb i = Some c -> nth_error (map Some sb) i = Some (Some c)) by (intros i c Hi; now rewrite nth_error_map, Hi).
  assert (Fa : Forall is_letter sa). { apply Forall_forall. intros c Hc. apply In_nth_error in Hc as (i & Hi). apply (proj1 (Forall_forall _ _) letters_letter). rewrite <- (lb_all _ _ _ _ _ L3). apply in_or_app. left. eapply (lb_a _ _ _ _ _ L3), Va, Hi. }
  assert (Fb : Forall is_letter sb). { apply Forall_forall. intros c Hc. apply In_nth_error in Hc as (i & Hi). apply (proj1 (Forall_forall _ _) letters_letter). rewrite <- (lb_all _ _ _ _ _ L3). apply in_or_app. left. eapply (lb_b _ _ _ _ _ L3), Vb, Hi. }
  assert (Fp : forall s n p, n = length s -> Forall is_letter s -> Forall is_letter (pick (axes_except n p) "a"%char s)). { intros s n p -> F. apply Forall_map, Forall_forall. intros i Hi. apply filter_In in Hi as [Hi _]. apply in_seq in Hi. apply (proj1 (Forall_forall _ _) F), nth_In. lia. }
  split. 2:{ apply Forall_app. split; auto. apply Forall_app. split; auto. apply Forall_app. split; auto. }
  split; auto.
  - apply NoDup_nth_error. intros i j Hi Hij. destruct (nth_error sa i) as [c|] eqn:Ei; [|apply nth_error_None in Ei; lia]. eapply (lb_aa _ _ _ _ _ L3); apply Va; [exact Ei|congruence].
  - apply NoDup_nth_error. intros i j Hi Hij. destruct (nth_error sb i) as [c|] eqn:Ei; [|apply nth_error_None in Ei; lia]. eapply (lb_bb _ _ _ _ _ L3); apply Vb; [exact Ei|congruence].
  - intros i j x y Hi Hj. apply (lb_ab _ _ _ _ _ L3); auto.
  - intro d. f_equal; unfold pick; apply map_ext_in; intros i Hi; apply filter_In in Hi as [Hi _]; apply in_seq in Hi; apply nth_indep; lia. Qed.
