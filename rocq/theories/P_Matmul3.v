From Verif Require Import Base Spec Spec_Matmul P_Index P_List M_Layout P_Layout P_Bounds P_Contig P_Strides M_Indexer P_Indexer M_Broadcast P_Broadcast Q_Broadcast M_Rearr P_Rearr P_BinOp M_Iter P_Iter M_Kernel P_Kernel Q_Kernel M_Tensor P_Tensor Q_Tensor M_Matmul P_Matmul P_Matmul2.
Local Open Scope Z_scope.

Lemma app2_inj {T} (a b : list T) x y x' y' : a ++ [x; y] = b ++ [x'; y'] -> a = b /\ x = x' /\ y = y'.
Proof. intro H. change [x; y] with ([x] ++ [y]) in H. change [x'; y'] with ([x'] ++ [y']) in H. rewrite !app_assoc in H. apply app_inj_tail in H as [H ->]. apply app_inj_tail in H as [-> ->]. auto. Qed.
Lemma valid2 s i j n m : length i = length s -> valid (s ++ [n; m]) (i ++ [j; n]) -> True. Proof. auto. Qed.
Lemma valid_mat B M N bx m n : length bx = length B -> valid (B ++ [M; N]) (bx ++ [m; n]) <-> valid B bx /\ (m < M)%nat /\ (n < N)%nat.
Proof. intro L. rewrite valid_app by auto. rewrite !valid_cons. assert (valid [] []) by constructor. tauto. Qed.
Lemma valid_vec B N bx n : length bx = length B -> valid (B ++ [N]) (bx ++ [n]) <-> valid B bx /\ (n < N)%nat.
Proof. intro L. rewrite valid_app by auto. rewrite !valid_cons. assert (valid [] []) by constructor. tauto. Qed.
Lemma valid_mat_inv B M N cx : valid (B ++ [M; N]) cx -> exists bx m n, cx = bx ++ [m; n] /\ valid B bx /\ (m < M)%nat /\ (n < N)%nat.
Proof. intro V. apply valid_app_inv in V as (bx & r & -> & Vb & V). apply valid_cons_inv in V as (m & r' & -> & Hm & V). apply valid_cons_inv in V as (n & r'' & -> & Hn & V). apply valid_nil in V as ->. exists bx, m, n. auto. Qed.
Lemma valid_vec_inv B N cx : valid (B ++ [N]) cx -> exists bx n, cx = bx ++ [n] /\ valid B bx /\ (n < N)%nat.
Proof. intro V. apply valid_app_inv in V as (bx & r & -> & Vb & V). apply valid_cons_inv in V as (m & r' & -> & Hm & V). apply valid_nil in V as ->. exists bx, m. auto. Qed.
Lemma valid_tuple1 n i : valid [n] [i] <-> (i < n)%nat.
Proof. rewrite valid_cons. assert (valid [] []) by constructor. tauto. Qed.
Lemma valid_tuple2 n m i j : valid [n; m] [i; j] <-> (i < n)%nat /\ (j < m)%nat.
Proof. rewrite !valid_cons. assert (valid [] []) by constructor. tauto. Qed.

(** inserting an axis into a vector layout *)
Lemma good_1d n t off : (n <> 0%nat -> 0 <= off /\ 0 <= off + t * (Z.of_nat n - 1)) -> good (mkLayout [n] [t] off).
Proof. intro H. apply good_intro; [reflexivity|]. cbn [l_shape l_stride]. intro E. change (size [n]) with (n * 1)%nat in E. assert (n <> 0)%nat as N by lia. destruct (H N) as (O & R). split.
  - intros ix V. apply valid_cons_inv in V as (i & r & -> & Hi & V). apply valid_nil in V as ->. unfold addr. cbn [l_offset l_stride dot].
    destruct (Z.le_gt_cases 0 t). { assert (0 <= t * Z.of_nat i) by (apply Z.mul_nonneg_nonneg; lia). lia. }
    assert (t * (Z.of_nat n - 1) <= t * Z.of_nat i) by (apply Z.mul_le_mono_nonpos_l; lia). lia.
  - unfold chk. cbn [combine]. exists (nz [(n, t)]). split; [auto|]. unfold nz, nzp. cbn [filter fst snd]. destruct ((1 <? n)%nat && negb (t =? 0)) eqn:E1; cbn [map pass fst snd]; auto. split; auto. lia. Qed.
Lemma insert_row n t off : (n <> 0%nat -> 0 <= off /\ 0 <= off + t * (Z.of_nat n - 1)) -> exists u, dim_insert (mkLayout [n] [t] off) 0 = Ok (mkLayout [1%nat; n] [u; t] off).
Proof. intro H. destruct (insert_spec (mkLayout [n] [t] off) 0 0 (good_1d _ _ _ H)) as (u & E & _). { split; [cbn; lia|now left]. } exists u. exact E. Qed.
Lemma insert_col n t off : (n <> 0%nat -> 0 <= off /\ 0 <= off + t * (Z.of_nat n - 1)) -> exists u, dim_insert (mkLayout [n] [t] off) 1 = Ok (mkLayout [n; 1%nat] [t; u] off).
Proof. intro H. destruct (insert_spec (mkLayout [n] [t] off) 1 1 (good_1d _ _ _ H)) as (u & E & _). { split; [cbn; lia|now left]. } exists u. exact E. Qed.
(** the last axis of a layout as a vector layout *)
Lemma tail_vec l B N : wf l -> nonneg l -> anchored l -> l_shape l = B ++ [N] -> exists t, tail_of l (length B) = mkLayout [N] [t] (l_offset l) /\ (N <> 0%nat -> 0 <= l_offset l /\ 0 <= l_offset l + t * (Z.of_nat N - 1)).
Proof. intros W Nn An S. destruct W as [L O]. assert (LT : length (skipn (length B) (l_stride l)) = 1%nat). { rewrite skipn_length, L, S, app_length. cbn. lia. }
  destruct (skipn (length B) (l_stride l)) as [|t [|]] eqn:E; cbn in LT; try lia. exists t. split. { unfold tail_of. rewrite E. f_equal. rewrite S, skipn_app, Nat.sub_diag, skipn_all. reflexivity. }
  intro Hn. destruct (Nat.eq_dec (size (l_shape l)) 0) as [Z0|Z0].
  - destruct (An Z0) as (O' & F). split; auto. assert (0 <= t). { rewrite Forall_forall in F. apply F. rewrite <- (firstn_skipn (length B) (l_stride l)), E. apply in_or_app. right. now left. } nia.
  - split; auto. assert (V : valid (l_shape l) (repeat 0%nat (length B) ++ [(N - 1)%nat])). { rewrite S. apply valid_vec; [apply repeat_length|]. split; [|lia]. apply valid_zeros. rewrite S, size_app in Z0. lia. }
    specialize (Nn _ V). unfold addr in Nn. rewrite <- (firstn_skipn (length B) (l_stride l)), E, dot_app, dot_zeros in Nn. 2:{ rewrite firstn_length, L, S, app_length, repeat_length. lia. } cbn [dot] in Nn. rewrite Nat2Z.inj_sub in Nn by lia. lia. Qed.

Lemma at_offset_mk s t o o' : at_offset (mkLayout s t o) o' = mkLayout s t o'. Proof. reflexivity. Qed.
Lemma good_row n t u off : good (mkLayout [n] [t] off) -> good (mkLayout [1%nat; n] [u; t] off).
Proof. intro G. apply good_intro; [reflexivity|]. cbn [l_shape l_stride combine]. intro NE. assert (NE' : size (l_shape (mkLayout [n] [t] off)) <> 0%nat) by (unfold size in *; cbn in *; lia).
  destruct (good_elim _ G NE') as (_ & _ & NN & CH). split; [|now apply (chk_insert [])]. intros ix V. cbn [l_shape] in V. apply valid_cons_inv in V as (i & r & -> & Hi & V). specialize (NN r V). unfold addr in *. cbn [l_offset l_stride dot] in *. replace i with 0%nat by lia. lia. Qed.
Lemma good_col n t u off : good (mkLayout [n] [t] off) -> good (mkLayout [n; 1%nat] [t; u] off).
Proof. intro G. apply good_intro; [reflexivity|]. cbn [l_shape l_stride combine]. intro NE. assert (NE' : size (l_shape (mkLayout [n] [t] off)) <> 0%nat) by (unfold size in *; cbn in *; lia).
  destruct (good_elim _ G NE') as (_ & _ & NN & CH). split; [|now apply (chk_insert [(n, t)])]. intros ix V. cbn [l_shape] in V. apply valid_cons_inv in V as (i & r & -> & Hi & V). apply valid_cons_inv in V as (j & r' & -> & Hj & V). apply valid_nil in V as ->. specialize (NN [i]). unfold addr in *. cbn [l_offset l_stride l_shape dot] in *. replace j with 0%nat by lia. assert (valid [n] [i]) by now apply valid_tuple1. specialize (NN H). lia. Qed.

Section Rules.
  Context {A B C : Type} (a : list A) (la : layout) (b : list B) (lb : layout) (c : list C) (lc : layout).
  Context (Wa : wf la) (Wb : wf lb) (Wc : wf lc) (Ia : inside la (length a)) (Ib : inside lb (length b)) (Ic : inside lc (length c)) (Jc : injective lc).
  Context (Aa : anchored la) (Ab : anchored lb) (Ac : anchored lc).
  Let Na : nonneg la. Proof. intros ix V. apply Ia in V. lia. Qed.
  Let Nb : nonneg lb. Proof. intros ix V. apply Ib in V. lia. Qed.
  Let Nc : nonneg lc. Proof. intros ix V. apply Ic in V. lia. Qed.
  (** products with batch axes *)
  Definition stacked : Prop := exists ra rb rc lam lbm lcm BC M K N cell ia ib, plan la lb lc = Ok (ra, rb, rc, lam, lbm, lcm) /\ stack RowMajor lc la lb ra rb rc lam lbm lcm BC M K N cell ia ib.
  Lemma rule_xx BA BB BC M K N : l_shape la = BA ++ [M; K] -> l_shape lb = BB ++ [K; N] -> l_shape lc = BC ++ [M; N] -> broadcasts RowMajor BA BB BC ->
    (length BA = length BC \/ BA = []) -> (length BB = length BC \/ BB = []) -> BC <> [] -> stacked.
  Proof. intros Sa Sb Sc Br RA RB NE.
    destruct (head_safe la BA _ Wa Na Aa Sa) as (Wra & Nra). destruct (head_safe lb BB _ Wb Nb Ab Sb) as (Wrb & Nrb). destruct (head_safe lc BC _ Wc Nc Ac Sc) as (Wrc & Nrc).
    pose proof (head_shape _ _ _ Sa) as Ha. pose proof (head_shape _ _ _ Sb) as Hb. pose proof (head_shape _ _ _ Sc) as Hc.
    pose proof (tail_shape _ _ _ Sa) as Ta. pose proof (tail_shape _ _ _ Sb) as Tb. pose proof (tail_shape _ _ _ Sc) as Tc.
    destruct (rest_broadcast _ _ _ _ Hc Ha Wrc Wra Nra (broadcasts_into _ _ _ _ Br)) as (pa & Ea & SA & WA & NA & FA).
    destruct (rest_broadcast _ _ _ _ Hc Hb Wrc Wrb Nrb (broadcasts_into _ _ _ _ (broadcasts_comm _ _ _ _ Br))) as (pb & Eb & SB & WB & NB & FB).
    (* the configuration: in every case the batch layouts are [ra], [rb], whose positions are those of the broadcast ones *)
    assert (CFG : exists ty ra rb, (plan la lb lc = Ok (ra, rb, head_of lc (length BC), tail_of la (length BA), tail_of lb (length BB), tail_of lc (length BC))) /\ ty = tt /\ l_shape ra = BC /\ l_shape rb = BC /\ wf ra /\ nonneg ra /\ wf rb /\ nonneg rb /\
        (forall bx, valid BC bx -> addr ra bx = addr (head_of la (length BA)) (source_index RowMajor BA bx)) /\
        (forall bx, valid BC bx -> addr rb bx = addr (head_of lb (length BB)) (source_index RowMajor BB bx))).
    { exists tt. assert (na : ndim la = (length BA + 2)%nat) by (unfold ndim; rewrite Sa, app_length; reflexivity). assert (nb : ndim lb = (length BB + 2)%nat) by (unfold ndim; rewrite Sb, app_length; reflexivity). assert (nc : ndim lc = (length BC + 2)%nat) by (unfold ndim; rewrite Sc, app_length; reflexivity).
      pose proof (split_tail la BA [M; K] 2 Sa eq_refl ltac:(lia)) as Ka. pose proof (split_tail lb BB [K; N] 2 Sb eq_refl ltac:(lia)) as Kb. pose proof (split_tail lc BC [M; N] 2 Sc eq_refl ltac:(lia)) as Kc. change (- (2)) with (-2) in *.
      destruct BC as [|d BC']; [easy|]. pose proof (proj1 Br) as Lb.
      destruct BA as [|da BA']; destruct BB as [|db BB']; cbn [length] in *; try lia.
      - (* 2 x 3.. *) exists (snd pa), (head_of lb (S (length BB'))). assert (EB : db :: BB' = d :: BC') by (eapply broadcasts_fun; [apply broadcasts_nil|exact Br]).
        split; [|split; [auto|]; split; [auto|]; split; [congruence|]; split; [auto|]; split; [auto|]; split; [auto|]; split; [auto|]; split; [intros bx V; apply FA; auto|]; intros bx V; rewrite source_index_self; auto; congruence].
        unfold plan, layout_matmul_with_lc. rewrite na, nb, nc. cbn [Nat.add]. replace (length BB' + 2)%nat with (S (S (length BB'))) by lia. cbv iota.
        rewrite Ka, Kb, Kc. replace (_ =? _)%nat with true by lia. cbn [check bind fst snd]. rewrite Ea. cbn [bind fst snd mm_la mm_lb mm_lc_matmul mm_la_rest mm_lb_rest mm_lc_rest unwrap_opt]. unfold ndim. rewrite Ta, Tb, Tc. reflexivity.
      - (* 3.. x 2 *) exists (head_of la (S (length BA'))), (snd pb). assert (EB : da :: BA' = d :: BC') by (eapply broadcasts_fun; [apply broadcasts_comm, broadcasts_nil|exact Br]).
        split; [|split; [auto|]; split; [congruence|]; split; [auto|]; split; [auto|]; split; [auto|]; split; [auto|]; split; [auto|]; split; [intros bx V; rewrite source_index_self; auto; congruence|]; intros bx V; apply FB; auto].
        unfold plan, layout_matmul_with_lc. rewrite na, nb, nc. cbn [Nat.add]. replace (length BA' + 2)%nat with (S (S (length BA'))) by lia. cbv iota.
        rewrite Ka, Kb, Kc. replace (_ =? _)%nat with true by lia. cbn [check bind fst snd]. rewrite Eb. cbn [bind fst snd mm_la mm_lb mm_lc_matmul mm_la_rest mm_lb_rest mm_lc_rest unwrap_opt]. unfold ndim. rewrite Ta, Tb, Tc. reflexivity.
      - (* 3.. x 3.. *) exists (snd pa), (snd pb). destruct RA as [RA|]; [|easy]. destruct RB as [RB|]; [|easy].
        split; [|split; [auto|]; split; [auto|]; split; [auto|]; split; [auto|]; split; [auto|]; split; [auto|]; split; [auto|]; split; [intros bx V; apply FA; auto|]; intros bx V; apply FB; auto].
        unfold plan, layout_matmul_with_lc. rewrite na, nb, nc. cbn [Nat.add]. replace (length BA' + 2)%nat with (S (S (length BA'))) by lia. replace (length BB' + 2)%nat with (S (S (length BB'))) by lia. cbv iota.
        rewrite Ka, Kb, Kc. do 2 replace (_ =? _)%nat with true by lia. cbn [check bind fst snd]. rewrite Ea, Eb. cbn [bind fst snd mm_la mm_lb mm_lc_matmul mm_la_rest mm_lb_rest mm_lc_rest unwrap_opt]. unfold ndim. rewrite Ta, Tb, Tc. reflexivity. }
    destruct CFG as (_ & ra & rb & EP & _ & Sra & Srb & Wra' & Nra' & Wrb' & Nrb' & Fra & Frb).
    assert (LA : forall bx, valid BC bx -> valid BA (source_index RowMajor BA bx)) by (intros; apply FA; auto). assert (LB : forall bx, valid BC bx -> valid BB (source_index RowMajor BB bx)) by (intros; apply FB; auto).
    exists ra, rb, (head_of lc (length BC)), (tail_of la (length BA)), (tail_of lb (length BB)), (tail_of lc (length BC)), BC, M, K, N, (fun bx m n => bx ++ [m; n]),
      (fun bx m k => source_index RowMajor BA bx ++ [m; k]), (fun bx k n => source_index RowMajor BB bx ++ [k; n]). split; [exact EP|]. constructor; auto.
    - intros bx m n V Hm Hn. pose proof (valid_length _ _ V) as L. split. { rewrite Sc. apply valid_mat; auto. } now apply (addr_split lc BC [M; N]).
    - intros bx m k V Hm Hk. pose proof (LA bx V) as VA. pose proof (valid_length _ _ VA) as L. split. { rewrite Sa. apply valid_mat; auto. } rewrite Fra by auto. now apply (addr_split la BA [M; K]).
    - intros bx k n V Hk Hn. pose proof (LB bx V) as VB. pose proof (valid_length _ _ VB) as L. split. { rewrite Sb. apply valid_mat; auto. } rewrite Frb by auto. now apply (addr_split lb BB [K; N]).
    - intros cx V. rewrite Sc in V. apply valid_mat_inv in V as (bx & m & n & -> & Vb & Hm & Hn). exists bx, m, n. auto.
    - intros bx m n bx' m' n' _ _ _ _ _ _ E. now apply app2_inj in E.
    - intros bx m n V Hm Hn. rewrite Sa, Sb. apply (ct_matmat RowMajor BA BB M K N bx m n).
    - intros G bx V. now apply (tail_good lc BC [M; N]).
    - intros G bx V. rewrite Fra by auto. apply (tail_good la BA [M; K]); auto.
    - intros G bx V. rewrite Frb by auto. apply (tail_good lb BB [K; N]); auto. Qed.

  Lemma rule_vecmat BB K N : l_shape la = [K] -> l_shape lb = BB ++ [K; N] -> l_shape lc = BB ++ [N] -> stacked.
  Proof. intros Sa Sb Sc. change [K] with ([] ++ [K]) in Sa.
    destruct (head_safe la [] _ Wa Na Aa Sa) as (Wra & Nra). destruct (head_safe lb BB _ Wb Nb Ab Sb) as (Wrb & Nrb). destruct (head_safe lc BB _ Wc Nc Ac Sc) as (Wrc & Nrc).
    pose proof (head_shape _ _ _ Sa) as Ha. pose proof (head_shape _ _ _ Sb) as Hb. pose proof (head_shape _ _ _ Sc) as Hc.
    pose proof (tail_shape _ _ _ Sb) as Tb.
    destruct (rest_broadcast _ _ _ _ Hc Ha Wrc Wra Nra (broadcasts_comm _ _ _ _ (broadcasts_nil _ _))) as (pa & Ea & SA & WA & NA & FA).
    destruct (tail_vec la [] K Wa Na Aa Sa) as (ta & Ta & Ra). destruct (tail_vec lc BB N Wc Nc Ac Sc) as (tc & Tc & Rc).
    destruct (insert_row K ta (l_offset la) Ra) as (ua & Ua). destruct (insert_row N tc (l_offset lc) Rc) as (uc & Uc).
    assert (E : plan la lb lc = Ok (snd pa, head_of lb (length BB), head_of lc (length BB), mkLayout [1%nat; K] [ua; ta] (l_offset la), tail_of lb (length BB), mkLayout [1%nat; N] [uc; tc] (l_offset lc))).
    { assert (na : ndim la = 1%nat) by (unfold ndim; rewrite Sa; reflexivity). assert (nb : ndim lb = S (S (length BB))) by (unfold ndim; rewrite Sb, app_length; cbn; lia). assert (nc : ndim lc = S (length BB)) by (unfold ndim; rewrite Sc, app_length; cbn; lia).
      pose proof (split_tail la [] [K] 1 Sa eq_refl ltac:(lia)) as Ka. pose proof (split_tail lb BB [K; N] 2 Sb eq_refl ltac:(lia)) as Kb. pose proof (split_tail lc BB [N] 1 Sc eq_refl ltac:(lia)) as Kc. change (- (2)) with (-2) in *. change (- (1)) with (-1) in *.
      unfold plan, layout_matmul_with_lc. rewrite na, nb, nc. replace (S (length BB) + 1)%nat with (S (S (length BB))) by lia. rewrite Nat.eqb_refl.
      cbn [check bind fst snd]. rewrite Ka, Kb, Kc. cbn [bind fst snd]. rewrite Ea. cbn [bind]. rewrite Ta, Ua. cbn [bind]. rewrite Tc, Uc. cbn [bind mm_la mm_lb mm_lc_matmul mm_la_rest mm_lb_rest mm_lc_rest unwrap_opt]. unfold ndim. rewrite Tb. reflexivity. }
    do 6 eexists. exists BB, 1%nat, K, N, (fun bx m n => bx ++ [n]), (fun bx m k => [k]), (fun bx k n => bx ++ [k; n]). split; [exact E|]. constructor; auto.
    - intros bx m n V Hm Hn. pose proof (valid_length _ _ V) as L. split. { rewrite Sc. apply valid_vec; auto. } rewrite <- (addr_split lc BB [N]) by auto. rewrite Tc. unfold addr at 1 3, at_offset. cbn [l_offset l_stride dot]. replace m with 0%nat by lia. lia.
    - intros bx m k V Hm Hk. split. { rewrite Sa. cbn [app]. now apply valid_tuple1. } destruct (FA bx V) as (_ & ->). change [k] with ([] ++ [k]). rewrite <- (addr_split la [] [K]) by auto. cbn [length]. cbn [length] in Ta. rewrite Ta. unfold addr at 1 3, at_offset. cbn [l_offset l_stride dot app]. replace m with 0%nat by lia.
      replace (source_index RowMajor [] bx) with (@nil nat) by reflexivity. lia.
    - intros bx k n V Hk Hn. pose proof (valid_length _ _ V) as L. split. { rewrite Sb. apply valid_mat; auto. } now apply (addr_split lb BB [K; N]).
    - intros cx V. rewrite Sc in V. apply valid_vec_inv in V as (bx & n & -> & Vb & Hn). exists bx, 0%nat, n. auto.
    - intros bx m n bx' m' n' _ _ Hm _ Hm' _ E'. apply app_inj_tail in E' as [-> ->]. split; auto. split; auto. lia.
    - intros bx m n V Hm Hn. rewrite Sa, Sb. apply (ct_vecmat RowMajor BB K N bx n).
    - intros G bx V. apply good_row. rewrite <- (at_offset_mk [N] [tc] (l_offset lc)), <- Tc. now apply (tail_good lc BB [N]).
    - intros G bx V. apply good_row. rewrite <- (at_offset_mk [K] [ta] (l_offset la)), <- Ta. destruct (FA bx V) as (_ & ->). apply (tail_good la [] [K]); auto. constructor.
    - intros G bx V. now apply (tail_good lb BB [K; N]). Qed.

  Lemma rule_matvec BA M K : l_shape la = BA ++ [M; K] -> l_shape lb = [K] -> l_shape lc = BA ++ [M] -> stacked.
  Proof. intros Sa Sb Sc. change [K] with ([] ++ [K]) in Sb.
    destruct (head_safe la BA _ Wa Na Aa Sa) as (Wra & Nra). destruct (head_safe lb [] _ Wb Nb Ab Sb) as (Wrb & Nrb). destruct (head_safe lc BA _ Wc Nc Ac Sc) as (Wrc & Nrc).
    pose proof (head_shape _ _ _ Sa) as Ha. pose proof (head_shape _ _ _ Sb) as Hb. pose proof (head_shape _ _ _ Sc) as Hc.
    pose proof (tail_shape _ _ _ Sa) as Ta.
    destruct (rest_broadcast _ _ _ _ Hc Hb Wrc Wrb Nrb (broadcasts_comm _ _ _ _ (broadcasts_nil _ _))) as (pb & Eb & SB & WB & NB & FB).
    destruct (tail_vec lb [] K Wb Nb Ab Sb) as (tb & Tb & Rb). destruct (tail_vec lc BA M Wc Nc Ac Sc) as (tc & Tc & Rc).
    destruct (insert_col K tb (l_offset lb) Rb) as (ub & Ub). destruct (insert_col M tc (l_offset lc) Rc) as (uc & Uc).
    assert (E : plan la lb lc = Ok (head_of la (length BA), snd pb, head_of lc (length BA), tail_of la (length BA), mkLayout [K; 1%nat] [tb; ub] (l_offset lb), mkLayout [M; 1%nat] [tc; uc] (l_offset lc))).
    { assert (nb : ndim lb = 1%nat) by (unfold ndim; rewrite Sb; reflexivity). assert (na : ndim la = S (S (length BA))) by (unfold ndim; rewrite Sa, app_length; cbn; lia). assert (nc : ndim lc = S (length BA)) by (unfold ndim; rewrite Sc, app_length; cbn; lia).
      pose proof (split_tail lb [] [K] 1 Sb eq_refl ltac:(lia)) as Kb. pose proof (split_tail la BA [M; K] 2 Sa eq_refl ltac:(lia)) as Ka. pose proof (split_tail lc BA [M] 1 Sc eq_refl ltac:(lia)) as Kc. change (- (2)) with (-2) in *. change (- (1)) with (-1) in *.
      unfold plan, layout_matmul_with_lc. rewrite na, nb, nc. replace (S (length BA) + 1)%nat with (S (S (length BA))) by lia. rewrite Nat.eqb_refl. 
      rewrite Ka, Kb, Kc. destruct (length BA) eqn:EL; cbn [check bind fst snd]; rewrite Eb; cbn [bind]; rewrite Tb, Ub; cbn [bind]; rewrite Tc, Uc; cbn [bind mm_la mm_lb mm_lc_matmul mm_la_rest mm_lb_rest mm_lc_rest unwrap_opt]; unfold ndim; rewrite Ta; reflexivity. }
    do 6 eexists. exists BA, M, K, 1%nat, (fun bx m n => bx ++ [m]), (fun bx m k => bx ++ [m; k]), (fun bx k n => [k]). split; [exact E|]. constructor; auto.
    - intros bx m n V Hm Hn. pose proof (valid_length _ _ V) as L. split. { rewrite Sc. apply valid_vec; auto. } rewrite <- (addr_split lc BA [M]) by auto. rewrite Tc. unfold addr at 1 3, at_offset. cbn [l_offset l_stride dot]. replace n with 0%nat by lia. lia.
    - intros bx m k V Hm Hk. pose proof (valid_length _ _ V) as L. split. { rewrite Sa. apply valid_mat; auto. } now apply (addr_split la BA [M; K]).
    - intros bx k n V Hk Hn. split. { rewrite Sb. cbn [app]. now apply valid_tuple1. } destruct (FB bx V) as (_ & ->). change [k] with ([] ++ [k]). rewrite <- (addr_split lb [] [K]) by auto. cbn [length]. cbn [length] in Tb. rewrite Tb. unfold addr at 1 3, at_offset. cbn [l_offset l_stride dot app]. replace n with 0%nat by lia.
      replace (source_index RowMajor [] bx) with (@nil nat) by reflexivity. lia.
    - intros cx V. rewrite Sc in V. apply valid_vec_inv in V as (bx & n & -> & Vb & Hn). exists bx, n, 0%nat. auto.
    - intros bx m n bx' m' n' _ _ _ Hm _ Hm' E'. apply app_inj_tail in E' as [-> ->]. split; auto. split; auto. lia.
    - intros bx m n V Hm Hn. rewrite Sa, Sb. apply (ct_matvec RowMajor BA M K bx m).
    - intros G bx V. apply good_col. rewrite <- (at_offset_mk [M] [tc] (l_offset lc)), <- Tc. now apply (tail_good lc BA [M]).
    - intros G bx V. now apply (tail_good la BA [M; K]).
    - intros G bx V. apply good_col. rewrite <- (at_offset_mk [K] [tb] (l_offset lb)), <- Tb. destruct (FB bx V) as (_ & ->). apply (tail_good lb [] [K]); auto. constructor. Qed.

  (** every product with batch axes is a stack *)
  Lemma product_stacked : product_shape RowMajor (l_shape la) (l_shape lb) (l_shape lc) -> same_batch_rank (l_shape la) (l_shape lb) ->
    (exists K, l_shape la = [K] /\ l_shape lb = [K] /\ l_shape lc = []) \/ (exists M K N, l_shape la = [M; K] /\ l_shape lb = [K; N] /\ l_shape lc = [M; N]) \/
    (stacked /\ ~ (ndim la = 1%nat /\ ndim lb = 1%nat /\ ndim lc = 0%nat) /\ ~ (ndim la = 2%nat /\ ndim lb = 2%nat /\ ndim lc = 2%nat)).
  Proof. intros PS SB. unfold ndim. remember (l_shape la) as sa eqn:Sa. remember (l_shape lb) as sb eqn:Sb. remember (l_shape lc) as sc eqn:Sc. symmetry in Sa, Sb, Sc. destruct PS as [K|BB K N|BA M K|BA BB BC M K N Br]; cbn [mat vec] in *.
    - left. exists K. auto.
    - right. right. split; [now apply (rule_vecmat BB K N)|]. rewrite !app_length. cbn [length]. lia.
    - right. right. split; [now apply (rule_matvec BA M K)|]. rewrite !app_length. cbn [length]. lia.
    - pose proof (proj1 Br) as L. right. destruct BC as [|d BC].
      + destruct BA; destruct BB; cbn in L; try lia. left. exists M, K, N. auto.
      + right. unfold same_batch_rank in SB. rewrite !app_length in *. cbn [length] in *. split; [|lia].
        apply (rule_xx BA BB (d :: BC) M K N); auto; try discriminate; cbn [length].
        * destruct BA as [|x BA]; [now right|]. left. destruct BB as [|y BB]; cbn [length] in *; lia.
        * destruct BB as [|x BB]; [now right|]. left. destruct BA as [|y BA]; cbn [length] in *; lia. Qed.
End Rules.
Section Naive.
  Context {A B C : Type} (mab : A -> B -> C) (add mul : C -> C -> C).
  Context (a : list A) (la : layout) (b : list B) (lb : layout) (c : list C) (lc : layout) (alpha beta : C).
  Context (Wa : wf la) (Wb : wf lb) (Wc : wf lc) (Ia : inside la (length a)) (Ib : inside lb (length b)) (Ic : inside lc (length c)) (Jc : injective lc).
  Context (Aa : anchored la) (Ab : anchored lb) (Ac : anchored lc).
  Let Na : nonneg la. Proof. intros ix V. apply Ia in V. lia. Qed.
  Let Nb : nonneg lb. Proof. intros ix V. apply Ib in V. lia. Qed.
  Let Nc : nonneg lc. Proof. intros ix V. apply Ic in V. lia. Qed.
  Lemma naive_plan : ~ (ndim la = 1%nat /\ ndim lb = 1%nat /\ ndim lc = 0%nat) -> ~ (ndim la = 2%nat /\ ndim lb = 2%nat /\ ndim lc = 2%nat) -> forall ra rb rc lam lbm lcm, plan la lb lc = Ok (ra, rb, rc, lam, lbm, lcm) ->
    matmul_naive mab mul add c lc a la b lb alpha beta = (let* pss := map_res (dispatch_positions Dyn) [ra; rb; rc] in fold_res (fun c p => match p with
      | [ia; ib; ic] => gemm mab mul add c (at_offset lcm ic) a (at_offset lam ia) b (at_offset lbm ib) alpha beta
      | _ => Panic end) (zip_all pss) c).
  Proof. intros H1 H2 ra rb rc lam lbm lcm P. unfold plan in P.
    destruct (layout_matmul_with_lc la lb lc) as [cfg| |] eqn:EC; try discriminate P. cbn [bind] in P. destruct (check _ _) as [u| |] eqn:ECH; try discriminate P. cbn [bind] in P.
    destruct (mm_la_rest cfg) as [ra'|] eqn:E1; try discriminate P. destruct (mm_lb_rest cfg) as [rb'|] eqn:E2; try discriminate P. destruct (mm_lc_rest cfg) as [rc'|] eqn:E3; try discriminate P. cbn [bind unwrap_opt] in P. injection P as -> -> -> <- <- <-.
    assert (X : (let* cfg := layout_matmul_with_lc la lb lc in
      let* _ := check ((ndim (mm_la cfg) =? 2) && (ndim (mm_lb cfg) =? 2) && (ndim (mm_lc_matmul cfg) =? 2))%nat InvalidLayout in
      let* ra := unwrap_opt (mm_la_rest cfg) in let* rb := unwrap_opt (mm_lb_rest cfg) in let* rc := unwrap_opt (mm_lc_rest cfg) in
      dispatch Dyn [ra; rb; rc] (fun c p => match p with
      | [ia; ib; ic] => gemm mab mul add c (at_offset (mm_lc_matmul cfg) ic) a (at_offset (mm_la cfg) ia) b (at_offset (mm_lb cfg) ib) alpha beta
      | _ => Panic end) c) = dispatch Dyn [ra; rb; rc] (fun c p => match p with
      | [ia; ib; ic] => gemm mab mul add c (at_offset (mm_lc_matmul cfg) ic) a (at_offset (mm_la cfg) ia) b (at_offset (mm_lb cfg) ib) alpha beta
      | _ => Panic end) c). { rewrite EC. cbn [bind]. rewrite ECH, E1, E2, E3. reflexivity. }
    transitivity (dispatch Dyn [ra; rb; rc] (fun c p => match p with
      | [ia; ib; ic] => gemm mab mul add c (at_offset (mm_lc_matmul cfg) ic) a (at_offset (mm_la cfg) ia) b (at_offset (mm_lb cfg) ib) alpha beta
      | _ => Panic end) c); [|reflexivity]. rewrite <- X. clear X. unfold matmul_naive. destruct (ndim la) as [|[|[|na]]]; destruct (ndim lb) as [|[|[|nb]]]; destruct (ndim lc) as [|[|[|nc]]]; try reflexivity; exfalso; auto. Qed.

  Context (Ent : C -> list C -> C -> Prop)
    (HE : forall z vs, Ent z vs (fold_left (fun v p => add (mul alpha p) v) vs (mul beta z)))
    (HE' : forall z vs, Ent z vs (fold_left (fun v p => add v (mul alpha p)) vs (mul beta z))).
  Notation product := (is_product_by RowMajor mab Ent a la b lb c lc).

  Lemma rule_dot_by K : l_shape la = [K] -> l_shape lb = [K] -> l_shape lc = [] -> l_offset lc = 0 -> exists c', inner_dot mab mul add c lc a la b lb alpha beta = Ok c' /\ product c'.
  Proof. intros Sa Sb Sc O. unfold inner_dot, extent. rewrite Sa, Sb. cbn [nth]. rewrite Nat.eqb_refl. cbn [check bind]. rewrite index_uncheck_addr.
    assert (AC : addr lc [] = 0). { unfold addr. rewrite dot_nil_r. lia. } rewrite AC.
    assert (VC : valid (l_shape lc) []) by (rewrite Sc; constructor). pose proof (Ic _ VC) as RC. rewrite AC in RC.
    destruct (proj1 (peek_inside c 0) RC) as (z & Hz). pose proof Hz as Hz'. apply zget_peek in Hz'. rewrite Hz'. cbn [bind].
    assert (G : forall ks x, (forall k, In k ks -> (k < K)%nat) -> exists vs, products mab a la b lb (map (fun k => ([k], [k])) ks) vs /\
      fold_res (fun s i => let* x := zget a (index_uncheck la [i]) in let* y := zget b (index_uncheck lb [i]) in Ok (add s (mul alpha (mab x y)))) ks x = Ok (fold_left (fun v p => add v (mul alpha p)) vs x)).
    { clear HE HE'. induction ks as [|k ks IH]; intros x Hk. { exists []. split; [constructor|reflexivity]. } assert (Hk' : (k < K)%nat) by (apply Hk; now left).
      destruct (elem_inside a la [k] Ia) as (u & Hu). { rewrite Sa. now apply valid_tuple1. } destruct (elem_inside b lb [k] Ib) as (w & Hw). { rewrite Sb. now apply valid_tuple1. }
      destruct (IH (add x (mul alpha (mab u w)))) as (vs & P & E0). { intros; apply Hk; now right. }
      exists (mab u w :: vs). split. { constructor; auto. exists u, w. auto. } cbn [fold_res fold_left]. unfold elem in Hu, Hw. apply zget_peek in Hu, Hw. rewrite index_uncheck_addr, Hu. cbn [bind]. rewrite index_uncheck_addr, Hw. cbn [bind]. exact E0. }
    destruct (G (seq 0 K) (mul beta z)) as (vs & P & E0). { intros k Hk. apply in_seq in Hk. lia. } rewrite E0. cbn [bind].
    destruct (zset_ok c 0 (fold_left (fun v p => add v (mul alpha p)) vs (mul beta z)) RC) as (c' & E' & L' & P' & Q'). exists c'. split; [exact E'|]. split.
    - split; auto. intros p Hp. apply Q'. intros ->. now apply (Hp [] VC).
    - intros cx V. rewrite Sc in V. apply valid_nil in V as ->. exists (map (fun k => ([k], [k])) (seq 0 K)), vs, z, (fold_left (fun v p => add v (mul alpha p)) vs (mul beta z)). rewrite Sa, Sb. split; [constructor|]. split; auto. unfold elem. rewrite AC. split; auto. Qed.

  Lemma rule_22_by M K N : l_shape la = [M; K] -> l_shape lb = [K; N] -> l_shape lc = [M; N] -> exists c', gemm mab mul add c lc a la b lb alpha beta = Ok c' /\ product c'.
  Proof. intros Sa Sb Sc. destruct (batch_exact mab add mul a b alpha beta (fun _ _ : unit => true) (fun _ => la) (fun _ => lb) (fun _ => lc) [tt] M K N c) as (c' & E0 & L & V & U); auto.
    - intros [] []; tauto.
    - repeat constructor; auto.
    - intros x m n _ Hm Hn. apply Ic. rewrite Sc. now apply valid_tuple2.
    - intros x m n _ Hm Hn _. apply Ia. rewrite Sa. now apply valid_tuple2.
    - intros x m n _ _ Hm Hn. apply Ib. rewrite Sb. now apply valid_tuple2.
    - intros [] [] m n m' n' _ _ Hm Hn Hm' Hn' E0. apply Jc in E0; try (rewrite Sc; now apply valid_tuple2). injection E0 as -> ->. auto.
    - cbn [fold_res] in E0. destruct (gemm mab mul add c lc a la b lb alpha beta) as [c1| |]; try discriminate. cbn [bind] in E0. injection E0 as ->. exists c'. split; [auto|]. split.
      + split; auto. intros p Hp. apply U. intros x m n _ Hm Hn. apply Hp. rewrite Sc. now apply valid_tuple2.
      + intros cx Vc. rewrite Sc in Vc. change [M; N] with ([] ++ [M; N]) in Vc. apply valid_mat_inv in Vc as (bx & m & n & -> & Vb & Hm & Hn). apply valid_nil in Vb as ->. cbn [app].
        destruct (V tt m n) as (z & vs & Hz & F & R); auto. { now left. } exists (map (fun k => ([m; k], [k; n])) (seq 0 K)), vs, z, (fold_left (fun v p => add (mul alpha p) v) vs (mul beta z)). split; [|split; [|split; [auto|split; [exact R|apply HE]]]].
        * rewrite Sa, Sb. apply (ct_matmat RowMajor [] [] M K N [] m n).
        * unfold products. clear R V. induction F as [|k v ks vs' H F IH]; cbn [map]; constructor; auto. Qed.

  (** the serial kernel, all shapes *)
  Lemma naive_by : product_shape RowMajor (l_shape la) (l_shape lb) (l_shape lc) -> same_batch_rank (l_shape la) (l_shape lb) -> (ndim lc = 0%nat -> l_offset lc = 0) ->
    exists c', matmul_naive mab mul add c lc a la b lb alpha beta = Ok c' /\ product c'.
  Proof. intros PS SB O. destruct (product_stacked a la b lb c lc Wa Wb Wc Ia Ib Ic Aa Ab Ac PS SB) as [(K & Sa & Sb & Sc)|[(M & K & N & Sa & Sb & Sc)|((ra & rb & rc & lam & lbm & lcm & BC & M & K & N & cell & ia & ib & EP & ST) & H1 & H2)]].
    - assert (E0 : matmul_naive mab mul add c lc a la b lb alpha beta = inner_dot mab mul add c lc a la b lb alpha beta) by (unfold matmul_naive, ndim; rewrite Sa, Sb, Sc; reflexivity).
      rewrite E0. apply (rule_dot_by K); auto. apply O. unfold ndim. now rewrite Sc.
    - assert (E0 : matmul_naive mab mul add c lc a la b lb alpha beta = gemm mab mul add c lc a la b lb alpha beta) by (unfold matmul_naive, ndim; rewrite Sa, Sb, Sc; reflexivity).
      rewrite E0. now apply (rule_22_by M K N).
    - rewrite (naive_plan H1 H2 _ _ _ _ _ _ EP).
      apply (batched_product_by mab add mul a b c alpha beta Ent HE (fun c lc la lb => gemm mab mul add c lc a la b lb alpha beta) (fun l => l) (fun l => Permutation_refl l) RowMajor lc la lb ra rb rc lam lbm lcm BC M K N cell ia ib); auto. Qed.
End Naive.
(** over a commutative semiring *)
Section Ring.
  Context {A B C : Type} (mab : A -> B -> C) (zero : C) (add mul : C -> C -> C) (SR : comm_semiring zero add mul).
  Context (a : list A) (la : layout) (b : list B) (lb : layout) (c : list C) (lc : layout) (alpha beta : C).
  Notation ent := (fun z vs v => v = add (mul beta z) (mul alpha (total zero add vs))).
  Notation product := (is_product RowMajor mab zero add mul alpha beta a la b lb c lc).
  Lemma rule_dot (Ia : inside la (length a)) (Ib : inside lb (length b)) (Ic : inside lc (length c)) K : l_shape la = [K] -> l_shape lb = [K] -> l_shape lc = [] -> l_offset lc = 0 -> exists c', inner_dot mab mul add c lc a la b lb alpha beta = Ok c' /\ product c'.
  Proof. intros Sa Sb Sc O. destruct (rule_dot_by mab add mul a la b lb c lc alpha beta Ia Ib Ic ent (fun z vs => accum_total zero add mul SR alpha vs (mul beta z)) (fun z vs => accum_total' zero add mul SR alpha vs (mul beta z)) K Sa Sb Sc O) as (c' & E & P). exists c'. split; [exact E|]. now apply product_by. Qed.
  Lemma rule_22 (Ia : inside la (length a)) (Ib : inside lb (length b)) (Ic : inside lc (length c)) (Jc : injective lc) M K N : l_shape la = [M; K] -> l_shape lb = [K; N] -> l_shape lc = [M; N] -> exists c', gemm mab mul add c lc a la b lb alpha beta = Ok c' /\ product c'.
  Proof. intros Sa Sb Sc. destruct (rule_22_by mab add mul a la b lb c lc alpha beta Ia Ib Ic Jc ent (fun z vs => accum_total zero add mul SR alpha vs (mul beta z)) M K N Sa Sb Sc) as (c' & E & P). exists c'. split; [exact E|]. now apply product_by. Qed.
End Ring.
