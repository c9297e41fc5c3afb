(** Proofs about packing into fixed arrays. *)
From Verif Require Import Base Spec P_Index P_List M_Layout P_Layout P_Bounds P_Strides M_Indexer P_Indexer P_Manip M_Kernel P_Kernel M_Tensor P_Tensor Q_Tensor Spec_Pack M_Pack.
Local Open Scope nat_scope.

(** ** vectors *)
Lemma skipn_skipn {A} x : forall y (l : list A), skipn x (skipn y l) = skipn (x + y) l.
Proof. intro y. induction y as [|y IH]; intro l; [now rewrite Nat.add_0_r|]. rewrite Nat.add_succ_r. destruct l as [|v l]; [now rewrite !skipn_nil|]. cbn [skipn]. apply IH. Qed.
Definition chunks {T} (n : nat) (xs : list T) (m : nat) : list (list T) := map (fun q => firstn n (skipn (q * n) xs)) (seq 0 m).
Lemma chunks_S {T} n (xs : list T) m : chunks n xs (S m) = firstn n xs :: chunks n (skipn n xs) m.
Proof. unfold chunks. cbn [seq map Nat.mul]. f_equal. rewrite <- seq_shift, map_map. apply map_ext. intro q. f_equal. cbn [Nat.mul]. rewrite skipn_skipn. f_equal. lia. Qed.
Lemma chunks_concat {T} n m : forall xs : list T, length xs = m * n -> concat (chunks n xs m) = xs.
Proof. induction m as [|m IH]; intros xs H; [destruct xs; [auto|cbn in H; lia]|]. rewrite chunks_S. cbn [concat]. rewrite IH; [apply firstn_skipn|]. rewrite skipn_length. cbn in H. lia. Qed.
Lemma chunks_length {T} n m : forall xs : list T, length xs = m * n -> Forall (fun c => length c = n) (chunks n xs m).
Proof. induction m as [|m IH]; intros xs H; [constructor|]. rewrite chunks_S. cbn in H. constructor; [rewrite firstn_length; lia|]. apply IH. rewrite skipn_length. lia. Qed.
Lemma concat_length {T} n (ys : list (list T)) : Forall (fun c => length c = n) ys -> length (concat ys) = length ys * n.
Proof. induction 1 as [|y ys Hy F IH]; cbn; auto. rewrite app_length. lia. Qed.
Lemma chunks_of_concat {T} n : forall (ys : list (list T)), Forall (fun c => length c = n) ys -> chunks n (concat ys) (length ys) = ys.
Proof. intros ys F. induction F as [|y ys Hy F IH]; [reflexivity|]. cbn [length]. rewrite chunks_S. cbn [concat]. replace (firstn n (y ++ concat ys)) with y by (rewrite firstn_app, Hy, Nat.sub_diag, firstn_O, app_nil_r; symmetry; apply firstn_all2; lia). replace (skipn n (y ++ concat ys)) with (concat ys) by (rewrite skipn_app, Hy, Nat.sub_diag, skipn_all2 by lia; reflexivity). now rewrite IH. Qed.
Lemma nth_chunk {T} n m (xs : list T) q r : length xs = m * n -> q < m -> r < n -> exists c, nth_error (chunks n xs m) q = Some c /\ length c = n /\ nth_error c r = nth_error xs (q * n + r).
Proof. intros H Hq Hr. exists (firstn n (skipn (q * n) xs)). split.
  - unfold chunks. rewrite nth_error_map, nth_error_nth' with (d := 0) by (rewrite seq_length; auto). rewrite seq_nth by auto. reflexivity.
  - assert (q * n + n <= m * n) by nia. split; [rewrite firstn_length, skipn_length; lia|]. rewrite <- (firstn_skipn (q * n) xs) at 2. rewrite nth_error_app2; rewrite firstn_length, Nat.min_l by lia; [|lia]. replace (q * n + r - q * n) with r by lia. rewrite <- (firstn_skipn n (skipn (q * n) xs)) at 2. rewrite nth_error_app1; auto. rewrite firstn_length, skipn_length. lia. Qed.

Lemma pack_spec {T} n (xs : list T) : 0 < n -> (forall m, length xs = m * n -> pack_array_f n xs = Ok (chunks n xs m)) /\ (~ Nat.divide n (length xs) -> pack_array_f n xs = Err InvalidValue).
Proof. intro Hn. unfold pack_array_f. replace (n =? 0) with false by lia. split.
  - intros m H. assert (E : length xs mod n = 0) by (rewrite H; apply Nat.mod_mul; lia). assert (E' : length xs / n = m) by (rewrite H; apply Nat.div_mul; lia). rewrite E, E'. reflexivity.
  - intro H. destruct (Nat.eqb_spec (length xs mod n) 0) as [E|E]; auto. exfalso. apply H. apply Nat.mod_divide; [lia|auto]. Qed.

(** ** strides *)
Local Open Scope Z_scope.
Definition fits (n : Z) (d : nat) (s : Z) : Prop := (d <= 1)%nat \/ (n | s).
Lemma quot_fits n s : n <> 0 -> (n | s) -> n * Z.quot s n = s.
Proof. intros Hn [k ->]. rewrite Z.quot_mul by auto. lia. Qed.
Lemma dot_quot n sh st ix : n <> 0 -> Forall2 (fits n) sh st -> valid sh ix -> n * dot (map (fun s => Z.quot s n) st) ix = dot st ix.
Proof. intros Hn F. revert ix. induction F as [|d s sh st Hd F IH]; intros ix V; [inversion V; cbn; lia|]. inversion V as [|i ix' d' sh' Hi V']. subst. cbn [map dot]. rewrite Z.mul_add_distr_l, IH by auto. f_equal. destruct Hd as [Hd|Hd]; [replace i with 0%nat by lia; lia|]. rewrite Z.mul_assoc, quot_fits; auto. Qed.
Lemma dot_scale n st ix : dot (map (fun s => s * n) st) ix = n * dot st ix.
Proof. revert ix. induction st as [|s st IH]; intros [|i ix]; cbn [map dot]; rewrite ?IH; lia. Qed.

Lemma pass_quot n q : 0 < n -> forall c c', n * c' <= c -> pass (map (fun p => (fst p, n * snd p)) q) c -> pass q c'.
Proof. intro Hn. induction q as [|[d t] q IH]; intros c c' H P; cbn [map pass fst snd] in *; auto. destruct P as [P1 P2]. split; [nia|]. eapply IH; [|exact P2]. nia. Qed.
Lemma pass_scale n q : 0 < n -> forall c c', c < n * (c' + 1) -> pass q c' -> pass (map (fun p => (fst p, n * snd p)) q) c.
Proof. intro Hn. induction q as [|[d t] q IH]; intros c c' H P; cbn [map pass fst snd] in *; auto. destruct P as [P1 P2]. split; [nia|]. eapply IH; [|exact P2]. nia. Qed.
Lemma nz_quot n L : 0 < n -> Forall (fun p => fits n (fst p) (snd p)) L -> nz L = map (fun p => (fst p, n * snd p)) (nz (map (fun p => (fst p, Z.quot (snd p) n)) L)).
Proof. intros Hn F. unfold nz. induction F as [|[d s] L Hd F IH]; [reflexivity|]. cbn [map filter fst snd] in *. unfold fits in Hd. destruct (nzp (d, s)) eqn:E.
  - unfold nzp in E. cbn [fst snd] in E. destruct Hd as [Hd|[k Hk]]; [lia|]. assert (Hq : Z.quot s n = k) by (rewrite Hk; apply Z.quot_mul; lia). rewrite Hq. replace (nzp (d, k)) with true by (unfold nzp; cbn [fst snd]; nia). cbn [map fst snd]. rewrite IH. do 2 f_equal. nia.
  - replace (nzp (d, Z.quot s n)) with false; [exact IH|]. unfold nzp in *. cbn [fst snd] in *. destruct (Nat.ltb_spec 1 d); [|reflexivity]. cbn [andb] in *. assert (s = 0) as -> by lia. reflexivity. Qed.
Lemma nz_scale n L : 0 < n -> nz (map (fun p => (fst p, snd p * n)) L) = map (fun p => (fst p, n * snd p)) (nz L).
Proof. intros Hn. unfold nz. induction L as [|[d s] L IH]; [reflexivity|]. cbn [map filter fst snd] in *. replace (nzp (d, s * n)) with (nzp (d, s)). { destruct (nzp (d, s)); auto. cbn [map fst snd]. rewrite IH. do 2 f_equal. nia. } unfold nzp. cbn [fst snd]. destruct (Nat.ltb_spec 1 d); cbn [andb]; auto. nia. Qed.

Lemma chk_quot (n : nat) A B : (0 < n)%nat -> Forall (fun p => fits (Z.of_nat n) (fst p) (snd p)) (A ++ B) -> chk (A ++ (n, 1) :: B) -> chk (map (fun p => (fst p, Z.quot (snd p) (Z.of_nat n))) (A ++ B)).
Proof. intros Hn F C. assert (C' : chk ((n, 1) :: A ++ B)) by (eapply chk_perm; [|exact C]; symmetry; apply Permutation_middle). destruct C' as (p & Hp & H). change ((n, 1) :: A ++ B) with ([(n, 1)] ++ (A ++ B)) in Hp. rewrite nz_app in Hp. rewrite (nz_quot (Z.of_nat n) (A ++ B)) in Hp by (auto; lia). set (L := nz (map _ (A ++ B))) in Hp.
  destruct (Nat.eq_dec n 1) as [->|N1].
  - cbn in Hp. destruct (Permutation_map_inv _ _ Hp) as (q & -> & Hq). exists q. split; [symmetry; exact Hq|]. eapply (pass_quot 1); [lia| |exact H]. lia.
  - assert (E : nz [(n, 1)] = [(n, 1)]) by (unfold nz; cbn [filter]; replace (nzp (n, 1)) with true by (unfold nzp; cbn [fst snd]; lia); reflexivity). rewrite E in Hp. cbn [app] in Hp.
    assert (Fp : Forall (fun x => (2 <= fst x)%nat /\ 0 < snd x) p). { apply Forall_forall. intros x Hx. apply (Permutation_in _ Hp) in Hx. destruct Hx as [<-|Hx]; [cbn; lia|]. apply in_map_iff in Hx as (y & <- & Hy). apply nz_facts in Hy. cbn [fst snd]. nia. }
    destruct (pass_sorted p 0 ltac:(lia) Fp H) as [S _]. destruct p as [|[d t] p]. { apply Permutation_nil in Hp. discriminate. } inversion_clear S as [|? ? S' Hd]. assert (X : (d, t) = (n, 1)). { assert (I : In (n, 1) ((d, t) :: p)) by (eapply Permutation_in; [symmetry; exact Hp|now left]). destruct I as [I|I]; auto. rewrite Forall_forall in Hd. specialize (Hd _ I). unfold keylt in Hd. cbn [snd] in Hd. inversion_clear Fp as [|? ? F0 _]. cbn [fst snd] in F0. lia. }
    rewrite X in *. apply Permutation_cons_inv in Hp. destruct (Permutation_map_inv _ _ Hp) as (q & -> & Hq). exists q. split; [symmetry; exact Hq|]. cbn [pass] in H. destruct H as [_ H]. eapply (pass_quot (Z.of_nat n)); [lia| |exact H]. lia. Qed.
Lemma chk_scale (n : nat) A B : (0 < n)%nat -> chk (A ++ B) -> chk (map (fun p => (fst p, snd p * Z.of_nat n)) A ++ (n, 1) :: map (fun p => (fst p, snd p * Z.of_nat n)) B).
Proof. intros Hn (q & Hq & H). eapply chk_perm; [apply Permutation_middle|]. rewrite <- map_app. destruct (Nat.eq_dec n 1) as [->|N1].
  - apply (chk_insert [] 1 1); [lia|]. exists (map (fun p => (fst p, 1 * snd p)) q). cbn [app]. change (Z.of_nat 1) with 1. rewrite nz_scale by lia. split; [now apply Permutation_map|]. eapply (pass_scale 1); [lia| |exact H]. lia.
  - exists ((n, 1) :: map (fun p => (fst p, Z.of_nat n * snd p)) q). change ((n, 1) :: map (fun p => (fst p, snd p * Z.of_nat n)) (A ++ B)) with ([(n, 1)] ++ map (fun p => (fst p, snd p * Z.of_nat n)) (A ++ B)). rewrite nz_app, nz_scale by lia. assert (E : nz [(n, 1)] = [(n, 1)]) by (unfold nz; cbn [filter]; replace (nzp (n, 1)) with true by (unfold nzp; cbn [fst snd]; lia); reflexivity). rewrite E. split; [cbn [app]; constructor; now apply Permutation_map|]. cbn [pass]. split; [lia|]. eapply (pass_scale (Z.of_nat n)); [lia| |exact H]. lia. Qed.
