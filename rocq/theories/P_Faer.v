(** Matrices of faer: reading, writing, conversion. *)
From Coq Require Import String Ring_theory Ring.
From Verif Require Import Base Spec Spec_Matmul Spec_Tri Spec_Blas P_Index P_List M_Layout P_Layout P_Bounds P_Contig P_Strides M_Indexer P_Indexer M_Broadcast P_Broadcast M_Rearr P_Rearr P_BinOp M_Iter P_Iter M_Kernel P_Kernel Q_Kernel M_Tensor P_Tensor Q_Tensor Q_Copy P_Arg P_Axes M_Matmul P_Matmul P_Matmul2 P_Matmul3 P_Matmul4 Q_Matmul M_Tri P_Tri P_Tri2 P_Tri3 P_Tri4 Q_Tri M_Fast P_Fast P_Fast2 P_Fast3 P_Creation M_Blas Spec_BlasApi P_Blas P_Blas2 P_Blas3 P_Blas4 M_Reduce Q_Reduce M_Linalg Spec_Linalg P_Linalg P_Linalg2 P_Linalg3 Q_Indexer P_Linalg4 P_Linalg5 P_Linalg6 M_Faer.
Local Open Scope Z_scope.

(** [fm_holds f m n A]: the matrix [f] of faer is [A]; [fm_free]: its cells are distinct *)
Definition fm_holds {T} (f : fmat T) (m n : nat) (A : nat -> nat -> T) : Prop :=
  fm_rows f = m /\ fm_cols f = n /\ forall i j, (i < m)%nat -> (j < n)%nat -> peek (fm_data f) (fm_pos f i j) = Some (A i j).
Definition fm_free {T} (f : fmat T) : Prop := forall i j i' j', (i < fm_rows f)%nat -> (j < fm_cols f)%nat -> (i' < fm_rows f)%nat -> (j' < fm_cols f)%nat -> fm_pos f i j = fm_pos f i' j' -> i = i' /\ j = j'.
Definition fm_strides {T} (f g : fmat T) : Prop := fm_ptr g = fm_ptr f /\ fm_rows g = fm_rows f /\ fm_cols g = fm_cols f /\ fm_rs g = fm_rs f /\ fm_cs g = fm_cs f.

Lemma fm_ext {T} (f : fmat T) m n A B : fm_holds f m n A -> (forall i j, (i < m)%nat -> (j < n)%nat -> A i j = B i j) -> fm_holds f m n B.
Proof. intros (E1 & E2 & H) Q. split; [|split]; auto. intros i j Hi Hj. now rewrite <- Q, H. Qed.
Lemma fm_read_with_ok {T} cell (f : fmat T) m n A B : fm_holds f m n A -> (forall i j, (i < m)%nat -> (j < n)%nat -> B i j = match cell i j with Some x => x | None => A i j end) -> fm_read_with cell f = Ok (rows m n B).
Proof. intros (E1 & E2 & H) Q. unfold fm_read_with, rows. rewrite E1, E2. apply map_res_map. intros i Hi. apply in_seq in Hi. apply map_res_map. intros j Hj. apply in_seq in Hj. specialize (Q i j ltac:(lia) ltac:(lia)).
  destruct (cell i j); [congruence|]. apply zget_peek. rewrite Q. apply H; lia. Qed.
Lemma fm_read_ok {T} (f : fmat T) m n A : fm_holds f m n A -> fm_read f = Ok (rows m n A).
Proof. intro H. apply (fm_read_with_ok _ f m n A A H). auto. Qed.
Lemma fm_read_tri_ok {T} (zero one : T) u (f : fmat T) m n A : fm_holds f m n A -> fm_read_tri zero u f = Ok (rows m n (triangular zero one u false A)).
Proof. intro H. apply (fm_read_with_ok _ f m n A _ H). intros i j _ _. unfold triangular. cbn [andb]. now destruct (in_triangle u i j). Qed.
Lemma peek_range {T} (d : list T) p x : peek d p = Some x -> 0 <= p < Z.of_nat (length d).
Proof. unfold peek. destruct (Z.ltb_spec p 0); [discriminate|]. intro H0. assert (nth_error d (Z.to_nat p) <> None) as H1 by congruence. apply nth_error_Some in H1. lia. Qed.
Lemma zset_modify {T} (pos : nat * nat -> Z) (X : nat * nat -> T) cells d : (forall c, In c cells -> 0 <= pos c < Z.of_nat (length d)) ->
  fold_res (fun d c => zset d (pos c) (X c)) cells d = fold_res (modify pos (fun c _ => Ok (X c))) cells d.
Proof. revert d. induction cells as [|c cells IH]; intros d R; auto. cbn [fold_res]. unfold modify at 1.
  assert (H : 0 <= pos c < Z.of_nat (length d)) by (apply R; now left). assert (exists x, peek d (pos c) = Some x) as (x & Hx) by (apply peek_inside; lia). apply zget_peek in Hx. rewrite Hx. cbn [bind].
  destruct (zset_ok d (pos c) (X c) H) as (d' & -> & L & _). cbn [bind]. apply IH. intros c' Hc. rewrite L. apply R. now right. Qed.
Lemma fm_write_ok {T} (f : fmat T) m n A X : fm_holds f m n A -> fm_free f -> exists g, fm_write f X = Ok g /\ fm_strides f g /\ fm_free g /\ fm_holds g m n X /\ length (fm_data g) = length (fm_data f) /\
  forall p, (forall i j, (i < m)%nat -> (j < n)%nat -> fm_pos f i j <> p) -> peek (fm_data g) p = peek (fm_data f) p.
Proof. intros (E1 & E2 & H) F. unfold fm_write. rewrite E1, E2. rewrite (zset_modify (fun c => fm_pos f (fst c) (snd c)) (fun c => X (fst c) (snd c))).
  - destruct (modify_fold (fun c => fm_pos f (fst c) (snd c)) (fun c _ => Ok (X (fst c) (snd c))) (all_cells m n) (fm_data f)) as (d & -> & L & Q & U).
    + apply (nodup_cells (fm_pos f) (all_cells m n) m n); [apply nodup_all|intros [i j] Hc; now apply in_all in Hc|]. intros. apply F; congruence.
    + intros [i j] Hc. apply in_all in Hc as [Hi Hj]. cbn [fst snd]. eapply peek_range. now apply H.
    + eauto.
    + cbn [bind]. eexists. split; [reflexivity|]. split; [unfold fm_strides; cbn; auto|]. split; [|split]; [|split; [auto|split; [auto|]]|split; [exact L|]].
      * intros i j i' j'. unfold fm_pos. cbn [fm_rows fm_cols fm_ptr fm_rs fm_cs]. intros. apply F; auto; congruence.
      * intros i j Hi Hj. destruct (Q (i, j) (A i j)) as (y & Ey & Py); [now apply in_all|now apply H|]. injection Ey as <-. exact Py.
      * intros p Hp. apply U. intro I. apply in_map_iff in I as ([i j] & Ep & I). apply in_all in I as [Hi Hj]. exact (Hp i j Hi Hj Ep).
  - intros [i j] Hc. apply in_all in Hc as [Hi Hj]. cbn [fst snd]. eapply peek_range. now apply H. Qed.
Lemma fm_transpose_holds {T} (f : fmat T) m n A : fm_holds f m n A -> fm_holds (fm_transpose f) n m (fun i j => A j i).
Proof. intros (E1 & E2 & H). split; [|split]; auto. intros i j Hi Hj. rewrite <- (H j i Hj Hi). unfold fm_pos, fm_transpose. cbn [fm_ptr fm_rs fm_cs fm_data]. f_equal. lia. Qed.
Lemma fm_transpose_free {T} (f : fmat T) : fm_free f -> fm_free (fm_transpose f).
Proof. intros F i j i' j'. unfold fm_pos, fm_transpose. cbn [fm_ptr fm_rs fm_cs fm_rows fm_cols]. intros H1 H2 H3 H4 E. destruct (F j i j' i'); auto. unfold fm_pos. lia. Qed.

(** into_faer *)
Lemma addr2 sh a b o i j : addr (mkLayout sh [a; b] o) [i; j] = o + Z.of_nat i * a + Z.of_nat j * b.
Proof. unfold addr. cbn -[Z.mul Z.add]. lia. Qed.
Lemma into_faer_pos {T} (t : tensor T) m n i j : wf (t_layout t) -> t_shape t = [m; n] -> fm_pos (into_faer t) i j = addr (t_layout t) [i; j].
Proof. intros W E. destruct t as [d l]. unfold t_shape in E. cbn [t_layout] in *. destruct (layout2 l m n W E) as (a & b & ->). rewrite addr2. reflexivity. Qed.
Lemma into_faer_holds {T} (t : tensor T) m n A : is_matrix t m n A -> fm_holds (into_faer t) m n A.
Proof. intros (Ht & S & H). pose proof Ht as Ht'. apply tensor_ok_good in Ht' as ((W & _) & _). split; [|split].
  - unfold into_faer, extent. cbn [fm_rows]. now rewrite S.
  - unfold into_faer, extent. cbn [fm_cols]. now rewrite S.
  - intros i j Hi Hj. rewrite (into_faer_pos t m n); auto. now apply H. Qed.
Lemma into_faer_free {T} (t : tensor T) m n A : is_matrix t m n A -> injective (t_layout t) -> fm_free (into_faer t).
Proof. intros (Ht & S & H) J. pose proof Ht as Ht'. apply tensor_ok_good in Ht' as ((W & _) & _). intros i j i' j'. unfold into_faer at 1 2 3 4. unfold extent. cbn [fm_rows fm_cols]. rewrite S. cbn [nth]. intros.
  rewrite !(into_faer_pos t m n) in * by auto. assert (E : [i; j] = [i'; j']) by (apply J; auto; rewrite S; now apply valid_pair). injection E as -> ->. auto. Qed.
Lemma into_faer_untouched {T} (t : tensor T) m n A (g : fmat T) : is_matrix t m n A -> length (fm_data g) = length (t_data t) ->
  (forall p, (forall i j, (i < m)%nat -> (j < n)%nat -> fm_pos (into_faer t) i j <> p) -> peek (fm_data g) p = peek (t_data t) p) -> untouched_outside (t_layout t) (t_data t) (fm_data g).
Proof. intros (Ht & S & H) L U. pose proof Ht as Ht'. apply tensor_ok_good in Ht' as ((W & _) & _). split; auto. intros p Hp. apply U. intros i j Hi Hj. rewrite (into_faer_pos t m n) by auto. apply Hp. rewrite S. now apply valid_pair. Qed.
Lemma into_faer_back {T} (t : tensor T) m n A X (g : fmat T) : is_matrix t m n A -> fm_strides (into_faer t) g -> fm_holds g m n X -> holds (fm_data g) (t_layout t) m n X.
Proof. intros (Ht & S & H) (E1 & E2 & E3 & E4 & E5) (_ & _ & Hg). pose proof Ht as Ht'. apply tensor_ok_good in Ht' as ((W & _) & _). split; auto. intros i j Hi Hj. rewrite <- (Hg i j Hi Hj). unfold elem. rewrite <- (into_faer_pos t m n) by auto.
  unfold fm_pos. now rewrite E1, E4, E5. Qed.

(** into_rstsr *)
Lemma nth_error_window {T} (d : list T) a n q : (q < n)%nat -> nth_error (firstn n (skipn a d)) q = nth_error d (a + q).
Proof. revert d n q. induction a as [|a IH]; intros d n q H; cbn [skipn Nat.add].
  - revert n q H. induction d as [|x d ID]; intros n q H; [now rewrite firstn_nil|]. destruct n; [lia|]. cbn [firstn]. destruct q; [reflexivity|]. cbn [nth_error]. apply ID. lia.
  - destruct d as [|x d]; [rewrite firstn_nil; now destruct q|]. now apply IH. Qed.
Lemma vec_at_peek {T} (d e : list T) p n q : vec_at d p n = Ok e -> 0 <= q < n -> peek e q = peek d (p + q).
Proof. unfold vec_at. destruct (_ && _) eqn:E; [|discriminate]. intros H Q. injection H as <-. unfold peek. replace (q <? 0) with false by lia. replace (p + q <? 0) with false by lia.
  rewrite nth_error_window by lia. f_equal. lia. Qed.
Lemma bounds_empty m n a b : size [m; n] = 0%nat -> bounds_index (mkLayout [m; n] [a; b] 0) = Ok (0, 0).
Proof. intro H. cbn in H. unfold bounds_index. cbn -[Z.mul]. destruct m; [reflexivity|]. destruct n; [|lia]. cbn. now destruct (a >? 0), m. Qed.
Lemma into_rstsr_ok {T} (f : fmat T) m n A : good (mkLayout [m; n] [fm_rs f; fm_cs f] 0) -> fm_holds f m n A -> 0 <= fm_ptr f <= Z.of_nat (length (fm_data f)) ->
  exists t, into_rstsr f = Ok t /\ is_matrix t m n A /\ t_layout t = mkLayout [m; n] [fm_rs f; fm_cs f] 0.
Proof. intros G (E1 & E2 & H) P. unfold into_rstsr. rewrite E1, E2. rewrite (layout_new_good _ _ _ G). cbn [unwrap bind]. set (l := mkLayout _ _ _) in *. pose proof (proj1 G) as W. pose proof (proj1 (proj2 G)) as NN.
  destruct (proj2 (bounds_index_ok_iff l W) NN) as ((lo & hi) & Eb). rewrite Eb. cbn [unwrap bind snd]. destruct (bounds_index_sound l lo hi W Eb) as (_ & B & Z0 & NZ).
  assert (V : exists d, vec_at (fm_data f) (fm_ptr f) hi = Ok d /\ length d = Z.to_nat hi).
  { destruct (Nat.eq_dec (size (l_shape l)) 0) as [Ez|Nz].
    - unfold l in Eb. rewrite bounds_empty in Eb by exact Ez. injection Eb as <- <-. unfold vec_at. replace (_ && _) with true by lia. eexists. split; reflexivity.
    - destruct (NZ Nz) as (_ & ix & Vx & Ex). unfold l in Vx. cbn [l_shape] in Vx. apply P_Fast3.valid2 in Vx as (i & j & -> & Hi & Hj). pose proof (H i j Hi Hj) as Q. apply peek_range in Q. unfold fm_pos in Q. unfold l in Ex. rewrite addr2 in Ex.
      assert (0 <= hi) by (pose proof (NN [i; j] ltac:(now apply valid_pair)) as NN'; unfold l in NN'; rewrite addr2 in NN'; lia).
      unfold vec_at. replace (_ && _) with true by lia. eexists. split; [reflexivity|]. rewrite firstn_length, skipn_length. lia. }
  destruct V as (d & V & L). rewrite V. cbn [bind]. eexists. split; [reflexivity|]. split; [|reflexivity]. split.
  - apply tensor_ok_good. cbn [t_layout t_data]. split; [exact G|]. intros ix Vx. specialize (B ix Vx). specialize (NN ix Vx). rewrite L. lia.
  - split; [reflexivity|]. cbn [t_data t_layout]. intros i j Hi Hj. rewrite <- (H i j Hi Hj). unfold elem. assert (Vx : valid (l_shape l) [i; j]) by now apply valid_pair. specialize (B _ Vx). specialize (NN _ Vx). rewrite (vec_at_peek _ _ _ _ _ V) by lia.
    unfold l. rewrite addr2. unfold fm_pos. f_equal. lia. Qed.
Lemma good2 m n a b : (size [m; n] <> 0%nat -> (0 <= a /\ 0 <= b) /\ chk [(m, a); (n, b)]) -> good (mkLayout [m; n] [a; b] 0).
Proof. intro H. apply good_intro; [reflexivity|]. cbn [l_shape l_stride combine]. intro NZ. destruct (H NZ) as ((Ha & Hb) & C). split; auto. intros ix Vx. cbn [l_shape] in Vx. apply P_Fast3.valid2 in Vx as (i & j & -> & _ & _). rewrite addr2. nia. Qed.
Lemma good_columns m n c : (m <= c)%nat -> good (mkLayout [m; n] [1; Z.of_nat c] 0).
Proof. intro H. apply good2. intro NZ. cbn in NZ. split; [lia|]. assert (1 <= m)%nat by (destruct m; [contradiction|lia]). unfold chk, nz, nzp. cbn [filter fst snd]. replace (Z.of_nat c =? 0) with false by lia. change (1 =? 0) with false. cbn [negb]. rewrite !andb_true_r.
  destruct (Nat.ltb_spec 1 m), (Nat.ltb_spec 1 n); cbn [map fst snd]; eexists; (split; [reflexivity|]); cbn [pass]; rewrite ?Z.abs_eq by lia; lia. Qed.
