(** The generalised eigenvalue problem on the faer device. *)
From Coq Require Import String Ring_theory Ring Setoid Morphisms.
From Verif Require Import Base Spec Spec_Matmul Spec_Tri Spec_Blas P_Index P_List M_Layout P_Layout P_Bounds P_Contig P_Strides M_Indexer P_Indexer M_Broadcast P_Broadcast M_Rearr P_Rearr P_BinOp M_Iter P_Iter M_Kernel P_Kernel Q_Kernel M_Tensor P_Tensor Q_Tensor Q_Copy P_Arg P_Axes M_Matmul P_Matmul P_Matmul2 P_Matmul3 P_Matmul4 Q_Matmul M_Tri P_Tri P_Tri2 P_Tri3 P_Tri4 Q_Tri M_Fast P_Fast P_Fast2 P_Fast3 P_Creation M_Blas Spec_BlasApi P_Blas P_Blas2 P_Blas3 P_Blas4 M_Reduce Q_Reduce M_Linalg Spec_Linalg P_Linalg P_Linalg2 P_Linalg3 Q_Indexer P_Linalg4 P_Linalg5 P_Linalg6 M_Faer Spec_Faer P_Faer P_Faer2 P_Faer3 P_Faer4.
Local Open Scope Z_scope.

(** ** a loop of assignments whose sources are not overwritten before *)
Lemma moves_ok {S T} (src dst : S -> Z) (h : S -> T -> T) steps : forall d, NoDup (map dst steps) -> (forall s, In s steps -> 0 <= src s < Z.of_nat (length d) /\ 0 <= dst s < Z.of_nat (length d)) ->
  (forall s s', In s steps -> In s' steps -> src s = dst s' -> s = s') ->
  exists d', fold_res (fun d s => let* x := zget d (src s) in zset d (dst s) (h s x)) steps d = Ok d' /\ length d' = length d /\
    (forall s x, In s steps -> peek d (src s) = Some x -> peek d' (dst s) = Some (h s x)) /\ forall p, ~ In p (map dst steps) -> peek d' p = peek d p.
Proof. induction steps as [|s steps IH]; intros d ND R J.
  - exists d. split; [reflexivity|]. split; auto. split; [intros s x []|auto].
  - cbn [fold_res]. destruct (R s) as (R1 & R2); [now left|]. apply peek_inside in R1 as (x & Hx). pose proof Hx as Gx. apply zget_peek in Gx. rewrite Gx. cbn [bind].
    destruct (zset_ok d (dst s) (h s x) R2) as (d1 & -> & L1 & P1 & O1). cbn [bind map] in *. inversion ND as [|? ? N1 N2]; subst.
    destruct (IH d1 N2) as (d' & -> & L & Q & U); [intros s' Hs; rewrite L1; apply R; now right|intros s1 s2 H1 H2; apply J; now right|].
    exists d'. split; auto. split; [congruence|]. split.
    + intros s' y [<-|Hs] Hy; [rewrite U by auto; congruence|]. apply Q; auto. rewrite O1; auto. intro E. assert (s' = s) as -> by (apply J; auto; [now right|now left]). apply N1. now apply in_map.
    + intros p Hp. cbn [map In] in Hp. rewrite U by tauto. apply O1. intro E. apply Hp. now left. Qed.
Lemma nodup_flat {A} (f : nat -> list A) (k : A -> nat) n : forall a, (forall i, NoDup (f i)) -> (forall i x, In x (f i) -> k x = i) -> NoDup (flat_map f (seq a n)).
Proof. induction n as [|n IH]; intros a N K; [constructor|]. cbn [seq flat_map]. apply nodup_app; auto. intros x H1 H2. apply K in H1. apply in_flat_map in H2 as (i & Hi & H2). apply K in H2. apply in_seq in Hi. lia. Qed.

Definition strict (u : uplo) (i j : nat) : bool := match u with Lower => (j <? i)%nat | Upper => (i <? j)%nat end.
Lemma in_mirrored u n i j i' j' : In ((i, j), (i', j')) (mirrored u n) <-> (i < n)%nat /\ (j < n)%nat /\ i' = j /\ j' = i /\ (i = j \/ strict u i j = true).
Proof. unfold mirrored. rewrite in_flat_map. split.
  - intros (k & Hk & H). apply in_seq in Hk. apply in_app_iff in H as [H|[H|[]]].
    + apply in_map_iff in H as (q & Eq & Hq). injection Eq as <- <- <- <-. unfold strict. destruct u; apply in_seq in Hq; repeat (split; [lia|]); right; lia.
    + injection H as <- <- <- <-. repeat (split; [lia|]). now left.
  - intros (Hi & Hj & -> & -> & H). exists i. split; [apply in_seq; lia|]. apply in_app_iff. destruct H as [->|H]; [right; now left|left]. apply in_map_iff. exists j. split; auto. unfold strict in H. destruct u; apply in_seq; lia. Qed.
Lemma mirrored_nodup u n : NoDup (map snd (mirrored u n)).
Proof. unfold mirrored. rewrite flat_map_concat_map, concat_map, map_map, <- flat_map_concat_map. apply (nodup_flat _ snd).
  - intro i. rewrite map_app, map_map. cbn [map snd]. apply nodup_app; [|constructor; [intros []|constructor]|].
    + apply FinFun.Injective_map_NoDup; [intros a b E; now injection E|]. destruct u; apply seq_NoDup.
    + intros x Hx [<-|[]]. apply in_map_iff in Hx as (q & Eq & Hq). injection Eq as ->. destruct u; apply in_seq in Hq; lia.
  - intros i x Hx. rewrite map_app, map_map in Hx. apply in_app_iff in Hx as [Hx|[<-|[]]]; [|reflexivity]. apply in_map_iff in Hx as (q & <- & _). reflexivity. Qed.
Lemma nth_map_seq {X} (f : nat -> X) n i d : (i < n)%nat -> nth i (map f (seq 0 n)) d = f i.
Proof. intro H. rewrite (nth_indep _ d (f 0%nat)) by (rewrite map_length, seq_length; auto). rewrite map_nth, seq_nth by auto. reflexivity. Qed.
Section General.
  Context {T R : Type} (zero one : T) (add mul sub : T -> T -> T) (opp : T -> T) (RT : ring_theory zero one add mul sub opp eq).
  Context (conj : T -> T) (CJ : conjugation add mul conj) (rp : T -> R) (emb : R -> T) (ER : forall r, conj (emb r) = emb r) (RE : forall x, conj x = x -> emb (rp x) = x).
  Notation re := (fun x : T => emb (rp x)).
  Notation symm := (symmetric_from conj re true).
  Lemma mirror_ok u (t : tensor T) n A : is_matrix t n n A -> injective (t_layout t) -> exists d, fold_res (mirror_step conj rp emb (t_layout t)) (mirrored u n) (t_data t) = Ok d /\ is_matrix (mkTensor d (t_layout t)) n n (symm u A).
  Proof. intros (Ht & S & H) J. pose proof Ht as Ht'. apply tensor_ok_good in Ht' as (G & I). set (l := t_layout t) in *.
    set (pos := fun c : nat * nat => addr l [fst c; snd c]). assert (PI : forall i j i' j', (i < n)%nat -> (j < n)%nat -> (i' < n)%nat -> (j' < n)%nat -> pos (i, j) = pos (i', j') -> i = i' /\ j = j').
    { intros i j i' j' H1 H2 H3 H4 E. assert (X : [i; j] = [i'; j']) by (apply J; auto; rewrite S; now apply valid_pair). now injection X as -> ->. }
    assert (RG : forall i j, (i < n)%nat -> (j < n)%nat -> 0 <= pos (i, j) < Z.of_nat (length (t_data t))) by (intros; apply I; rewrite S; now apply valid_pair).
    destruct (moves_ok (fun s => pos (fst s)) (fun s => pos (snd s)) (fun s x => if (fst (fst s) =? snd (fst s))%nat then emb (rp x) else conj x) (mirrored u n) (t_data t)) as (d & Ed & L & Q & U).
    - rewrite <- (map_map snd pos). apply (nodup_cells (fun i j => pos (i, j)) (map snd (mirrored u n)) n n) in PI; [|apply mirrored_nodup|].
      + erewrite map_ext; [exact PI|]. now intros [].
      + intros [i j] Hc. apply in_map_iff in Hc as (((a, b), (a', b')) & Ec & Hc). apply in_mirrored in Hc. cbn [snd fst] in *. injection Ec as <- <-. lia.
    - intros ((i, j), (i', j')) Hs. apply in_mirrored in Hs as (Hi & Hj & -> & -> & _). cbn [fst snd]. auto.
    - intros ((i, j), (i', j')) ((k, q), (k', q')) H1 H2 E. apply in_mirrored in H1 as (Hi & Hj & -> & -> & H1). apply in_mirrored in H2 as (Hk & Hq & -> & -> & H2). cbn [fst snd] in E. apply PI in E as [-> ->]; auto.
      unfold strict in *. destruct u; (destruct H1 as [H1|H1]; destruct H2 as [H2|H2]; try (subst; reflexivity); try lia).
    - exists d. split.
      + rewrite <- Ed. clear. assert (W : forall s (d : list T), mirror_step conj rp emb l d s = let* x := zget d (pos (fst s)) in zset d (pos (snd s)) (if (fst (fst s) =? snd (fst s))%nat then emb (rp x) else conj x)).
        { intros ((i, j), (i', j')) d0. unfold mirror_step, pos. cbn [fst snd]. rewrite !index_uncheck_addr. reflexivity. }
        generalize (t_data t). induction (mirrored u n) as [|s m IH]; intro d; auto. cbn [fold_res]. rewrite W. destruct (zget d (pos (fst s))); cbn [bind]; auto. destruct (zset _ _ _); cbn [bind]; auto.
      + split; [apply tensor_ok_good; split; [exact G|]; cbn [t_layout t_data]; now rewrite L|]. split; [exact S|]. cbn [t_data t_layout]. intros i j Hi Hj. unfold elem. change (addr l [i; j]) with (pos (i, j)).
        unfold symmetric_from. destruct (Nat.eqb_spec i j) as [->|N].
        * pose proof (Q ((j, j), (j, j)) (A j j)) as X. cbn [fst snd] in X. rewrite Nat.eqb_refl in X. apply X; [apply in_mirrored; auto 10|]. now apply H.
        * destruct (in_triangle u i j) eqn:E.
          -- rewrite U; [now apply H|]. intro X. apply in_map_iff in X as (((a, b), (a', b')) & Ea & Hs). apply in_mirrored in Hs as (Ha & Hb & -> & -> & Hs). cbn [snd] in Ea. apply PI in Ea as [-> ->]; auto. unfold in_triangle in E. unfold strict in Hs. destruct u; lia.
          -- pose proof (Q ((j, i), (i, j)) (A j i)) as X. cbn [fst snd] in X. destruct (Nat.eqb_spec j i); [congruence|]. apply X; [|now apply H]. apply in_mirrored. repeat (split; [auto; lia|]). right. unfold in_triangle in E. unfold strict. destruct u; lia. Qed.
  Lemma symm_hermitian u A n : hermitian n conj (symm u A).
  Proof. constructor. intros i j _ _. unfold adj. cbn [op_of]. unfold symmetric_from. rewrite Nat.eqb_sym. destruct (Nat.eqb_spec i j) as [->|N]; [apply ER|]. destruct (in_triangle u j i) eqn:E1, (in_triangle u i j) eqn:E2; auto; try apply CJ; unfold in_triangle in *; destruct u; lia. Qed.
  Lemma symm_of_hermitian u C n : hermitian n conj C -> eqm n (symm u C) C.
  Proof. intros H. constructor. intros i j Hi Hj. unfold symmetric_from. destruct (Nat.eqb_spec i j) as [->|N]; [apply RE; apply (eqm_at H j j); auto|]. destruct (in_triangle u i j); auto. exact (eqm_at H i j Hi Hj). Qed.

  Add Ring Tring : RT.
  (** ** triangular systems in place *)
  Notation P := (product zero add mul).
  Notation eye := (identity zero one).
  Notation tri u := (triangular zero one u false).
  Context (tri_lib : par -> uplo -> nat -> nat -> list (list T) -> nat -> nat -> list (list T) -> option (nat -> nat -> T)) (SV : solves_triangles zero one add mul tri_lib).
  Notation in_place := (tri_in_place zero tri_lib).
  #[local] Instance P_proper n : Proper (eqm n ==> eqm n ==> eqm n) (P n).
  Proof. intros A A' HA B B' HB. constructor. intros i j Hi Hj. apply product_ext; intros; [apply HA|apply HB]; auto. Qed.
  #[local] Instance tr_pr n : Proper (eqm n ==> eqm n) (@tr T). Proof. intros A B H. constructor. intros i j Hi Hj. now apply H. Qed.
  #[local] Instance adj_pr n : Proper (eqm n ==> eqm n) (adj conj). Proof. intros A B H. constructor. intros i j Hi Hj. unfold adj. cbn. f_equal. now apply H. Qed.
  Lemma listed_half n u L : listed n n (half zero u L) = rows n n (tri u L).
  Proof. unfold listed, rows. apply map_ext. intro i. apply map_ext. intro j. unfold half, triangular. cbn [andb]. reflexivity. Qed.
  Lemma tri_full_lower n L : lower zero n L -> eqm n (tri Lower L) L.
  Proof. intro H. constructor. intros i j Hi Hj. unfold triangular. cbn [andb in_triangle]. destruct (Nat.leb_spec j i); auto. symmetry. now apply H. Qed.
  Lemma tri_full_upper n L : upper zero n L -> eqm n (tri Upper L) L.
  Proof. intro H. constructor. intros i j Hi Hj. unfold triangular. cbn [andb in_triangle]. destruct (Nat.leb_spec i j); auto. symmetry. now apply H. Qed.
  Definition shaped (u : uplo) (n : nat) (L : nat -> nat -> T) : Prop := match u with Lower => lower zero n L | Upper => upper zero n L end.
  Lemma tri_full u n L : shaped u n L -> eqm n (tri u L) L. Proof. destruct u; cbn; auto using tri_full_lower, tri_full_upper. Qed.
  Lemma tri_step gp u n L (f : fmat T) B : shaped u n L -> (forall i, (i < n)%nat -> L i i <> zero) -> fm_holds f n n B -> fm_free f ->
    exists g X, in_place gp u n L f = Ok g /\ fm_strides f g /\ fm_free g /\ fm_holds g n n X /\ length (fm_data g) = length (fm_data f) /\ eqm n (P n L X) B.
  Proof. intros SH D H F. unfold tri_in_place. rewrite (fm_read_ok _ n n B H). cbn [bind]. pose proof H as (E1 & E2 & _). rewrite E1, E2, listed_half. destruct (SV gp u n n L B D) as (X & -> & SX). cbn [or_panic bind].
    destruct (fm_write_ok f n n B X H F) as (g & -> & Sg & Fg & Hg & Lg & _). exists g, X. split; auto. split; auto. split; auto. split; auto. split; auto. rewrite <- (tri_full u n L SH) at 1. constructor. intros i j Hi Hj. exact (SX i j Hi Hj). Qed.
  Lemma solve_exists u n L B : shaped u n L -> (forall i, (i < n)%nat -> L i i <> zero) -> exists X, eqm n (P n L X) B.
  Proof. intros SH D. destruct (SV ParSeq u n n L B D) as (X & _ & SX). exists X. rewrite <- (tri_full u n L SH) at 1. constructor. intros i j Hi Hj. exact (SX i j Hi Hj). Qed.
  Lemma unit_exists x : x <> zero -> exists y, mul y x = one.
  Proof. intro N. destruct (solve_exists Lower 1 (fun _ _ => x) (fun _ _ => one)) as (X & E); [intros i j; cbn; lia|auto|]. exists (X 0%nat 0%nat). pose proof (eqm_at E 0%nat 0%nat ltac:(lia) ltac:(lia)) as H. unfold product, sum_over in H. cbn in H.
    destruct RT. rewrite Rmul_comm. etransitivity; [|exact H]. now rewrite Radd_comm, Radd_0_l. Qed.
  Lemma conj_nonzero x : x <> zero -> conj x <> zero.
  Proof. intros N E. apply N. destruct CJ as (_ & _ & C). rewrite <- (C x), E. apply (conj_zero zero one add mul sub opp RT conj CJ). Qed.
  Lemma adj_upper n L : lower zero n L -> upper zero n (adj conj L).
  Proof. intros H i j Hi Hj Hji. unfold adj. cbn [op_of]. rewrite H by auto. apply (conj_zero zero one add mul sub opp RT conj CJ). Qed.
  Lemma left_inverse n L : lower zero n L -> (forall i, (i < n)%nat -> L i i <> zero) -> exists M, eqm n (P n M L) eye.
  Proof. intros HL D. destruct (solve_exists Upper n (adj conj L) eye) as (W & HW); [now apply adj_upper|intros i Hi; unfold adj; cbn; apply conj_nonzero; auto|]. exists (adj conj W).
    rewrite <- (adj_adj add mul n conj CJ L), <- (adj_product zero one add mul sub opp RT n conj CJ), HW. apply (adj_id zero one add mul sub opp RT n conj CJ). Qed.
  (** ** the congruences *)
  Lemma congruence_one gp n L S (f : fmat T) : lower zero n L -> (forall i, (i < n)%nat -> L i i <> zero) -> fm_holds f n n S -> fm_free f ->
    exists x y C, in_place gp Lower n L f = Ok x /\ in_place gp Lower n (fun i j => conj (L i j)) (fm_transpose x) = Ok y /\ fm_holds (fm_transpose y) n n C /\ eqm n (P n L (P n C (adj conj L))) S.
  Proof. intros HL D H F. destruct (tri_step gp Lower n L f S HL D H F) as (x & X & Ex & _ & Fx & Hx & _ & EX).
    destruct (tri_step gp Lower n (fun i j => conj (L i j)) (fm_transpose x) (fun i j => X j i)) as (y & Y & Ey & _ & Fy & Hy & _ & EY).
    - intros i j Hi Hj Hij. rewrite HL by auto. apply (conj_zero zero one add mul sub opp RT conj CJ).
    - intros i Hi. apply conj_nonzero. auto.
    - now apply fm_transpose_holds.
    - now apply fm_transpose_free.
    - exists x, y, (tr Y). split; auto. split; auto. split; [now apply fm_transpose_holds|]. rewrite <- EX. apply P_proper; [reflexivity|]. change (eqm n (P n (fun i j => conj (L i j)) Y) (tr X)) in EY.
      transitivity (tr (tr X)); [|constructor; reflexivity]. rewrite <- EY. rewrite (tr_product zero one add mul sub opp RT n). reflexivity. Qed.
  Lemma congruence_two gp n K S (f : fmat T) : lower zero n K -> (forall i, (i < n)%nat -> K i i <> zero) -> fm_holds f n n S -> fm_free f ->
    exists x y C, in_place gp Upper n (adjoint conj K) f = Ok x /\ in_place gp Upper n (fun i j => K j i) (fm_transpose x) = Ok y /\ fm_holds (fm_transpose y) n n C /\ eqm n (P n (adj conj K) (P n C K)) S.
  Proof. intros HK D H F. destruct (tri_step gp Upper n (adjoint conj K) f S) as (x & X & Ex & _ & Fx & Hx & _ & EX); auto; [now apply adj_upper|intros i Hi; apply conj_nonzero; auto|].
    destruct (tri_step gp Upper n (fun i j => K j i) (fm_transpose x) (fun i j => X j i)) as (y & Y & Ey & _ & Fy & Hy & _ & EY).
    - intros i j Hi Hj Hij. now apply HK.
    - auto.
    - now apply fm_transpose_holds.
    - now apply fm_transpose_free.
    - exists x, y, (tr Y). split; auto. split; auto. split; [now apply fm_transpose_holds|]. rewrite <- EX. change (adjoint conj K) with (adj conj K). apply P_proper; [reflexivity|]. change (eqm n (P n (tr K) Y) (tr X)) in EY.
      transitivity (tr (tr X)); [|constructor; reflexivity]. rewrite <- EY. rewrite (tr_product zero one add mul sub opp RT n). reflexivity. Qed.
  (** ** the whole function *)
  Context (dflt : order) (cores : nat) (cap : nat -> nat) (pad : nat -> T) (CAP : forall k, (k <= cap k)%nat).
  Lemma finish n V o (f : fmat T) : like_new cap f n n -> fm_holds f n n V -> exists t c, into_rstsr f = Ok t /\ settle dflt t o = Ok c /\ is_matrix c n n V.
  Proof. intros LK H. destruct (like_rstsr cap pad CAP f n n V LK H) as (t & Et & Mt & Lt). destruct (settle_matrix dflt t o n n V Mt) as (c & Ec & Mc); [apply offset_rooted; now rewrite Lt|]. eauto. Qed.
  Lemma like_strides f g n : like_new cap f n n -> fm_strides f g -> length (fm_data g) = length (fm_data f) -> like_new (T := T) cap g n n.
  Proof. intros (A1 & A2 & A3 & A4 & A5 & A6) (B1 & B2 & B3 & B4 & B5) L. unfold like_new. repeat (split; [congruence|]). congruence. Qed.
  Lemma tri_finish gp u n L V o : shaped u n L -> (forall i, (i < n)%nat -> L i i <> zero) ->
    exists v t c X, in_place gp u n L (fm_new cap pad n n V) = Ok v /\ into_rstsr v = Ok t /\ settle dflt t o = Ok c /\ is_matrix c n n X /\ eqm n (P n L X) V.
  Proof. intros SH D. destruct (tri_step gp u n L (fm_new cap pad n n V) V SH D) as (v & X & Ev & Sv & Fv & Hv & Lv & EX); [now apply fm_new_holds|now apply fm_new_free|].
    destruct (finish n X o v) as (t & c & Et & Ec & Mc); [eapply like_strides; [apply (fm_new_like cap pad)|exact Sv|exact Lv]|exact Hv|]. exists v, t, c, X. auto. Qed.
  Lemma nth_rows n (K : nat -> nat -> T) : eqm n (fun i j => nth j (nth i (rows n n K) []) zero) K.
  Proof. constructor. intros i j Hi Hj. unfold rows. rewrite nth_map_seq by auto. now rewrite nth_map_seq by auto. Qed.
  Notation dd := (default_device dflt cores).
  Lemma eigh_general_ok eigen_lib llt_lib pool (a b : placed T) u itype n A B g :
    is_matrix (p_tensor a) n n A -> injective (t_layout (p_tensor a)) -> is_matrix (p_tensor b) n n B -> same_device (p_device a) (p_device b) = true -> 1 <= itype <= 3 ->
    let t := side_of (p_device a) u in
    let run := faer_eigh_general zero one conj rp emb dflt cores cap pad eigen_lib llt_lib tri_lib pool a b u itype in
    (forall L, llt_lib (active pool g) t n n (rows n n (tri t B)) = Ok L -> cholesky_of zero add mul conj n (symm t B) L) ->
    match llt_lib (active pool g) t n n (rows n n (tri t B)) with
    | Ok L => exists C, outcome (eigen_lib (active pool g) t n n (rows n n (tri t C))) pool g run (fun x y =>
        eigen zero add mul mul n (symm t C) (snd x) (fst x) -> (forall j, (j < n)%nat -> emb (rp (fst x j)) = fst x j) ->
        is_vector (p_tensor (fst y)) n (fun j => rp (fst x j)) /\ (exists V, is_matrix (p_tensor (snd y)) n n V /\ eigen_general zero add mul (fun x r => mul x (emb r)) itype n (symm t A) (symm t B) V (fun j => rp (fst x j))) /\
        p_device (fst y) = dd /\ p_device (snd y) = dd)
    | Err _ => run g = (Err FaerError, active pool g)
    | Panic => run g = (Panic, active pool g)
    end.
  Proof. intros HA JA HB SD IT t run CH. set (gp := match pool with Some n0 => ParRayon n0 | None => ParSeq end).
    assert (EA : extent (t_layout (p_tensor a)) 0 = n /\ extent (t_layout (p_tensor a)) 1 = n). { destruct HA as (_ & S & _). unfold t_shape in S. unfold extent, l_shape in *. now rewrite S. }
    destruct EA as [EA0 EA1]. pose proof HA as (Ta & Sa & Qa). destruct (into_owned_copy Fixed dflt (p_tensor a) Ta) as (ao & Eo & To & So & Qo & _ & Lo).
    assert (Mo : is_matrix ao n n A) by (apply (matrix_copy (p_tensor a)); auto).
    assert (Jo : injective (t_layout ao)) by (destruct Lo as [(-> & _)|(_ & J)]; auto).
    destruct (mirror_ok t ao n A Mo Jo) as (d & Ed & Md). pose proof (into_faer_holds _ n n B HB) as Fb. pose proof Fb as (E1 & E2 & _).
    eassert (RUN : run g = _).
    { unfold run, faer_eigh_general. rewrite SD. cbn [check]. rewrite (lift_ok _ tt) by reflexivity. replace ((1 <=? itype) && (itype <=? 3)) with true by lia. cbn [check]. rewrite (lift_ok _ tt) by reflexivity.
      rewrite EA0, EA1, Nat.eqb_refl. cbn [check]. rewrite (lift_ok _ tt) by reflexivity. rewrite enter_run. fold t gp. rewrite (lift_ok _ ao) by exact Eo. rewrite (lift_ok _ d) by exact Ed. rewrite E1, E2, (lift_ok _ _ _ _ (fm_read_tri_ok zero one t _ n n B Fb)), call_run. reflexivity. }
    clearbody run gp. unfold outcome. rewrite RUN. clear RUN.
    pose proof (into_faer_holds _ n n _ Md) as Fa. pose proof (into_faer_free _ n n _ Md Jo) as Ra. set (fa := into_faer (mkTensor d (t_layout ao))) in *. clearbody fa.
    destruct (llt_lib _ _ _ _ _) as [L|e|]; cbn [faer_err]; [|reflexivity|reflexivity]. specialize (CH L eq_refl) as (HL & DL & EL). assert (EB : eqm n (P n L (adj conj L)) (symm t B)) by (constructor; exact EL).
    assert (DU : forall i, (i < n)%nat -> adjoint conj L i i <> zero) by (intros i Hi; apply conj_nonzero; auto).
    pose proof (adj_upper n L HL) as UL. destruct (left_inverse n L HL DL) as (M & HM). pose proof (symm_hermitian t A n) as HS.
    assert (EV : forall C w V, hermitian n conj C -> eigen zero add mul mul n (symm t C) V w -> (forall j, (j < n)%nat -> emb (rp (w j)) = w j) -> eqm n (P n C V) (scaled mul V (fun j => emb (rp (w j))))).
    { intros C w V HC EE RW. rewrite <- (symm_of_hermitian t C n HC) at 1. constructor. intros i j Hi Hj. unfold scaled. rewrite RW by auto. now apply EE. }
    destruct (Z.eqb_spec itype 1) as [->|N1].
    - destruct (congruence_one gp n L (symm t A) fa HL DL Fa Ra) as (x & y & C & Ex & Ey & HC & EC). exists C.
      assert (CC : hermitian n conj C) by (apply (congruence_hermitian zero one add mul sub opp RT n conj CJ L M C (symm t A)); auto).
      destruct (eigen_lib _ _ _ _ _) as [(w, V)|e|] eqn:EG; (rewrite Ex; cbn [bind]; rewrite Ey; cbn [bind]; unfold gbind at 1; unfold gbind at 1; unfold glift at 1; unfold gbind at 1; unfold eigen_of; rewrite (lift_ok _ _ _ _ (fm_read_tri_ok zero one t _ n n C HC)); unfold gcall at 1; rewrite EG; cbn [faer_err]; try reflexivity). cbn [fst snd].
      destruct (column_ok n w) as (c & Ec & Vc & Lc). destruct (map_vector dflt rp c _ _ Vc) as (c2 & Ec2 & Vc2 & _).
      destruct (tri_finish gp Upper n (adjoint conj L) V (d_order (p_device a)) UL DU) as (v & v1 & v2 & X & Ev & Ev1 & Ev2 & Mv & EX).
      unfold glift at 1. rewrite Ec. cbn [bind]. rewrite Ec2. cbn [unwrap bind]. rewrite Ev. cbn [bind]. rewrite Ev1. cbn [bind]. rewrite Ev2. cbn [bind]. rewrite leave_run. eexists. split; [reflexivity|]. cbn [p_tensor p_device fst snd].
      intros EE RW. split; [exact Vc2|]. split; [|auto]. exists X. split; auto. intros i j Hi Hj. rewrite Z.eqb_refl. apply (eqm_at (type_one zero one add mul sub opp RT n conj L C (symm t A) (symm t B) V X (fun j => emb (rp (w j))) EC EB (EV C w V CC EE RW) EX) i j Hi Hj).
    - set (eye0 := fun i j => if (i =? j)%nat then one else zero).
      destruct (tri_step gp Lower n L (fm_new cap pad n n eye0) eye0 HL DL) as (k & K0 & Ek & _ & _ & Hk & _ & EK0); [now apply fm_new_holds|now apply fm_new_free|].
      set (K := fun i j => nth j (nth i (rows n n K0) []) zero). assert (EK : eqm n (P n L K) eye) by (unfold K; rewrite nth_rows; exact EK0).
      assert (LK : lower zero n K). { apply (lower_inverse zero one add mul sub opp RT n L K); auto. intros i Hi. apply unit_exists. auto. }
      assert (EK' : eqm n (P n K L) eye) by (rewrite <- (inverse_sides zero one add mul sub opp RT n L M K HM EK); exact HM).
      assert (DK : forall i, (i < n)%nat -> K i i <> zero).
      { intros i Hi Z0. pose proof (inverse_diagonal zero one add mul sub opp RT n L K i HL LK EK Hi) as X. rewrite Z0 in X. apply (DL i Hi). transitivity (mul one (L i i)); [ring|]. rewrite <- X. ring. }
      destruct (congruence_two gp n K (symm t A) fa LK DK Fa Ra) as (x & y & C & Ex & Ey & HC & EC). exists C.
      assert (CC : hermitian n conj C). { apply (congruence_hermitian zero one add mul sub opp RT n conj CJ (adj conj K) (adj conj L) C (symm t A)); auto; [|now rewrite (adj_adj add mul n conj CJ)]. rewrite <- (adj_product zero one add mul sub opp RT n conj CJ), EK'. apply (adj_id zero one add mul sub opp RT n conj CJ). }
      destruct (eigen_lib _ _ _ _ _) as [(w, V)|e|] eqn:EG; (fold eye0; rewrite Ek; cbn [bind]; rewrite (fm_read_ok _ n n K0 Hk); cbn [bind]; fold K; change (fun i j : nat => nth i (nth j (rows n n K0) []) zero) with (fun i j => K j i); rewrite Ex; cbn [bind]; rewrite Ey; cbn [bind fst snd]; unfold gbind at 1; unfold gbind at 1; unfold glift at 1; unfold gbind at 1; unfold eigen_of; cbn [fst snd]; rewrite (lift_ok _ _ _ _ (fm_read_tri_ok zero one t _ n n C HC)); unfold gcall at 1; rewrite EG; cbn [faer_err]; try reflexivity). cbn [fst snd].
      destruct (column_ok n w) as (c & Ec & Vc & Lc). destruct (map_vector dflt rp c _ _ Vc) as (c2 & Ec2 & Vc2 & _). unfold glift at 1. rewrite Ec. cbn [bind]. rewrite Ec2. cbn [unwrap bind].
      destruct (Z.eqb_spec itype 2) as [->|N2].
      + destruct (tri_finish gp Upper n (adjoint conj L) V (d_order (p_device a)) UL DU) as (v & v1 & v2 & X & Ev & Ev1 & Ev2 & Mv & EX).
        rewrite Ev. cbn [bind]. rewrite Ev1. cbn [bind]. rewrite Ev2. cbn [bind]. rewrite leave_run. eexists. split; [reflexivity|]. cbn [p_tensor p_device fst snd].
        intros EE RW. split; [exact Vc2|]. split; [|auto]. exists X. split; auto. intros i j Hi Hj. cbn [Z.eqb Pos.eqb]. apply (eqm_at (type_two zero one add mul sub opp RT n conj CJ L K C (symm t A) (symm t B) V X (fun j => emb (rp (w j))) EK EK' EC EB (EV C w V CC EE RW) EX) i j Hi Hj).
      + destruct (tri_finish gp Lower n K V (d_order (p_device a)) LK DK) as (v & v1 & v2 & X & Ev & Ev1 & Ev2 & Mv & EX).
        rewrite Ev. cbn [bind]. rewrite Ev1. cbn [bind]. rewrite Ev2. cbn [bind]. rewrite leave_run. eexists. split; [reflexivity|]. cbn [p_tensor p_device fst snd].
        intros EE RW. split; [exact Vc2|]. split; [|auto]. exists X. split; auto. intros i j Hi Hj. replace (itype =? 1) with false by lia. replace (itype =? 2) with false by lia. apply (eqm_at (type_three zero one add mul sub opp RT n conj CJ L K C (symm t A) (symm t B) V X (fun j => emb (rp (w j))) EK EK' EC EB (EV C w V CC EE RW) EX) i j Hi Hj). Qed.
End General.
