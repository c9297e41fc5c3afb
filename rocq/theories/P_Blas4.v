(** The LAPACK wrappers. *)
From Verif Require Import Base Spec Spec_Matmul Spec_Tri Spec_Blas P_Index P_List M_Layout P_Layout P_Bounds P_Contig P_Strides M_Indexer P_Indexer M_Broadcast P_Broadcast M_Rearr P_Rearr P_BinOp M_Iter P_Iter M_Kernel P_Kernel Q_Kernel M_Tensor P_Tensor Q_Tensor Q_Copy P_Arg P_Axes M_Matmul P_Matmul P_Matmul2 P_Matmul3 P_Matmul4 Q_Matmul M_Tri P_Tri P_Tri2 P_Tri3 P_Tri4 Q_Tri M_Fast P_Fast P_Fast2 P_Fast3 P_Creation M_Blas Spec_BlasApi P_Blas P_Blas2 P_Blas3.
Local Open Scope Z_scope.

(** what the drivers need: a matrix in the given order with a leading extent *)
Definition handed {T} (o : order) (l : layout) (d : list T) (m n : nat) (lda : Z) (A : nat -> nat -> T) : Prop :=
  located o l m n (l_offset l) lda /\ inside l (length d) /\ good l /\ holds d l m n A.

Section Convert.
  Context {T : Type} (dev dflt : order).
  Lemma packed_handed (c : tensor T) o m n A : tensor_ok c -> nonempty m n -> prefers o (t_layout c) = true -> holds (t_data c) (t_layout c) m n A ->
    exists lda, ld o (t_layout c) = Some lda /\ handed o (t_layout c) (t_data c) m n lda A.
  Proof. intros Tc [N1 N2] P H. pose proof (holds_shape _ _ _ _ _ H) as E. apply tensor_ok_good in Tc as (G & I). destruct (prefers_ld o _ m n G E N1 N2 P) as (lda & L & W). exists lda. split; auto. split; auto. Qed.
  Lemma working_prefers l : f_prefer l = true \/ c_prefer l = true -> prefers (working_order l) l = true.
  Proof. unfold working_order. destruct (f_prefer l) eqn:F, (c_prefer l) eqn:C; cbn [andb negb prefers]; auto; intros [H|H]; congruence. Qed.
  Lemma convert_ok (r : reference T) m n A : nonempty m n -> lapack_operand r m n A -> exists x, overwritable_convert dev dflt r = Ok x /\ tensor_ok (mview x) /\ holds (t_data (mview x)) (t_layout (mview x)) m n A /\
    (exists lda, ld (working_order (t_layout (mview x))) (t_layout (mview x)) = Some lda /\ handed (working_order (t_layout (mview x))) (t_layout (mview x)) (t_data (mview x)) m n lda A) /\ commits dev x (target_of r) m n /\ match r with Ref _ => exists b, x = Owned b | RMut t => x = MutRef t \/ exists b, x = ToBeCloned t b end.
  Proof. intros NE (Ht & H & F). assert (K : forall c : tensor T, tensor_ok c -> f_prefer (t_layout c) = true \/ c_prefer (t_layout c) = true -> holds (t_data c) (t_layout c) m n A -> exists lda, ld (working_order (t_layout c)) (t_layout c) = Some lda /\ handed (working_order (t_layout c)) (t_layout c) (t_data c) m n lda A).
    { intros c Tc P Hc. apply packed_handed; auto. now apply working_prefers. }
    destruct r as [t|t]; cbn [ref_of overwritable_convert target_of] in *; set (o := match f_prefer (t_layout t) with true => _ | false => _ end); destruct (contig_owned_ok dev dflt t m n A o Ht NE H) as (b & Eb & Tb & Pb & Hb);
    assert (Pb' : f_prefer (t_layout b) = true \/ c_prefer (t_layout b) = true) by (destruct Pb as (_ & Pb & _); destruct o; auto).
    - rewrite Eb. cbn [bind]. exists (Owned b). split; auto. cbn [mview]. split; auto. split; auto. split; auto. split; [now apply commits_owned|eauto].
    - destruct (f_prefer (t_layout t) || c_prefer (t_layout t)) eqn:P.
      + apply orb_true_iff in P. exists (MutRef t). split; auto. cbn [mview]. split; auto. split; auto. split; auto. split; [apply commits_mut|auto].
      + rewrite Eb. cbn [bind]. exists (ToBeCloned t b). split; auto. cbn [mview]. split; auto. split; auto. split; auto. split; [|eauto]. apply orb_false_iff in P as [P1 P2]. apply commits_clone; auto; [now apply holds_shape in H|]. destruct F as [F|[F|F]]; congruence. Qed.
  Lemma convert_order_ok (r : reference T) m n A o : nonempty m n -> lapack_operand r m n A -> not_broadcast r -> exists x, overwritable_convert_with_order dev dflt r o = Ok x /\ tensor_ok (mview x) /\ holds (t_data (mview x)) (t_layout (mview x)) m n A /\
    (exists lda, ld o (t_layout (mview x)) = Some lda /\ handed o (t_layout (mview x)) (t_data (mview x)) m n lda A) /\ commits dev x (target_of r) m n.
  Proof. intros NE (Ht & H & _) F. destruct r as [t|t]; cbn [ref_of overwritable_convert_with_order target_of] in *; destruct (contig_owned_ok dev dflt t m n A o Ht NE H) as (b & Eb & Tb & (_ & Pb & _) & Hb).
    - rewrite Eb. cbn [bind]. exists (Owned b). split; auto. cbn [mview]. split; auto. split; auto. split; [now apply packed_handed|]. now apply commits_owned.
    - destruct (prefers o (t_layout t)) eqn:P.
      + exists (MutRef t). split; auto. cbn [mview]. split; auto. split; auto. split; [now apply packed_handed|]. apply commits_mut.
      + rewrite Eb. cbn [bind]. exists (ToBeCloned t b). split; auto. cbn [mview]. split; auto. split; auto. split; [now apply packed_handed|]. apply commits_clone; auto. now apply holds_shape in H. Qed.
  (** ** the transposed copies of the row-major drivers *)
  Lemma row_same l m n base lda : located RowMajor l m n base lda -> forall i j, (i < m)%nat -> (j < n)%nat -> addr (row_layout m n base lda) [i; j] = addr l [i; j].
  Proof. intros (E & _ & W) i j Hi Hj. rewrite <- W by auto. unfold row_layout. rewrite addr2. cbn [win]. unfold window. lia. Qed.
  Lemma row_injective l m n base lda : located RowMajor l m n base lda -> injective (row_layout m n base lda).
  Proof. intros (E & L & W). apply (located_injective RowMajor _ m n base lda). split; [reflexivity|]. split; auto. intros i j Hi Hj. unfold row_layout. rewrite addr2. cbn [win]. unfold window. lia. Qed.
  Lemma row_wf l m n base lda (d : list T) : nonempty m n -> located RowMajor l m n base lda -> inside l (length d) -> wf (row_layout m n base lda) /\ inside (row_layout m n base lda) (length d).
  Proof. intros [N1 N2] L I. assert (I' : inside (row_layout m n base lda) (length d)). { intros ix V. cbn [row_layout l_shape] in V. apply P_Fast3.valid2 in V as (i & j & -> & Hi & Hj). rewrite (row_same l) by auto. apply I. destruct L as (-> & _). now apply valid_pair. }
    split; auto. split; [reflexivity|]. intros _. cbn [row_layout l_offset]. specialize (I' [0; 0]%nat). cbn [row_layout l_shape] in I'. specialize (I' (valid_pair m n 0 0 ltac:(lia) ltac:(lia))). unfold row_layout in I'. rewrite addr2 in I'. cbn [Z.of_nat] in I'. rewrite !Z.mul_0_r in I'. lia. Qed.
  Lemma col_facts m n : nonempty m n -> located ColMajor (col_layout m n) m n 0 (ld_t m) /\ wf (col_layout m n) /\ good (col_layout m n) /\ covers (col_layout m n) (m * n) /\ injective (col_layout m n).
  Proof. intros [N1 N2]. destruct (contig_facts Fixed [m; n] ColMajor) as (G & J & C & _ & _). pose proof (contig_packed ColMajor m n N1 N2) as (_ & _ & L). rewrite contig_pair in *. fold (col_layout m n) in *. unfold ld_t. replace (Nat.max m 1) with m by lia. cbn [rows_of] in L. split; auto. split; [apply G|]. split; auto. split; auto. replace (m * n)%nat with (size [m; n]) by (unfold size; cbn; lia). exact C. Qed.
  Lemma to_col_ok (d : list T) l m n lda A : nonempty m n -> handed RowMajor l d m n lda A -> exists c, to_col m n d (l_offset l) lda = Ok c /\ inside (col_layout m n) (length c) /\ holds c (col_layout m n) m n A.
  Proof. intros NE (L & I & G & H). destruct (col_facts m n NE) as (Lc & Wc & Gc & Cc & Jc). destruct (row_wf l m n _ lda d NE L I) as (Wr & Ir). unfold to_col.
    destruct (l_r2c (option T) (repeat None (m * n)) (col_layout m n) (map Some d) (row_layout m n (l_offset l) lda) m n) as [(_ & _ & _ & c' & -> & U & Q)|(X & _)]; auto.
    { rewrite repeat_length. now apply covers_inside. } { now rewrite map_length. } 2:{ exfalso. apply X. auto. }
    cbn [unwrap bind]. destruct (fresh_result (col_layout m n) c' (fun ix v => elem d (row_layout m n (l_offset l) lda) ix = Some v)) as (c & Ec & _ & Lc' & Ic & Qc); auto.
    { destruct U as [U _]. rewrite U, repeat_length. exact Cc. }
    { intros ix V. cbn [col_layout l_shape] in V. rewrite Q by auto. apply P_Fast3.valid2 in V as (i & j & -> & Hi & Hj). assert (X : elem d (row_layout m n (l_offset l) lda) [i; j] = Some (A i j)). { unfold elem. rewrite (row_same l) by auto. now apply H. } exists (A i j). split; auto. unfold elem in *. unfold peek in *. destruct (_ <? 0); [discriminate|]. now rewrite nth_error_map, X. }
    exists c. split; auto. split; auto. split; [reflexivity|]. intros i j Hi Hj. destruct (Qc [i; j]) as (v & V1 & V2); [now apply valid_pair|]. rewrite V1. rewrite <- V2. unfold elem. rewrite (row_same l) by auto. now apply H. Qed.
  Lemma from_col_ok (d c : list T) l m n lda A F : nonempty m n -> handed RowMajor l d m n lda A -> inside (col_layout m n) (length c) -> holds c (col_layout m n) m n F ->
    exists d', from_col m n d (l_offset l) lda c = Ok d' /\ untouched_outside l d d' /\ holds d' l m n F.
  Proof. intros NE (L & I & G & H) Ic Hc. destruct (col_facts m n NE) as (Lc & Wc & Gc & Cc & Jc). destruct (row_wf l m n _ lda d NE L I) as (Wr & Ir). unfold from_col.
    destruct (l_c2r T d (row_layout m n (l_offset l) lda) c (col_layout m n) m n) as [(_ & _ & _ & d' & -> & U & Q)|(X & _)]; auto.
    { eapply row_injective; eauto. } 2:{ exfalso. apply X. auto. }
    exists d'. split; auto. destruct U as [U1 U2]. split; [split; auto|].
    - intros p Hp. apply U2. intros ix V. cbn [row_layout l_shape] in V. apply P_Fast3.valid2 in V as (i & j & -> & Hi & Hj). rewrite (row_same l) by auto. apply Hp. destruct L as (-> & _). now apply valid_pair.
    - split; [apply L|]. intros i j Hi Hj. unfold elem. rewrite <- (row_same l m n (l_offset l) lda) by auto. fold (elem d' (row_layout m n (l_offset l) lda) [i; j]). rewrite Q by now apply valid_pair. now apply Hc. Qed.
End Convert.

Lemma untouched_trans {T} l (a b c : list T) : untouched_outside l a b -> untouched_outside l b c -> untouched_outside l a c.
Proof. intros (L1 & U1) (L2 & U2). split; [congruence|]. intros p Hp. rewrite U2 by auto. auto. Qed.
Section Lapack.
  Context {T : Type} (zero one : T) (dev dflt : order).
  Context (getrf_lib : nat -> nat -> list (list T) -> option ((nat -> nat -> T) * list Z)).
  Context (getri_lib : nat -> list (list T) -> list Z -> option (nat -> nat -> T)).
  Context (gesv_lib : nat -> nat -> list (list T) -> list (list T) -> option ((nat -> nat -> T) * list Z * (nat -> nat -> T))).
  Context (potrf_lib : uplo -> nat -> list (list T) -> option (nat -> nat -> T)).
  Context (sysv_lib : bool -> uplo -> nat -> nat -> list (list T) -> list (list T) -> option ((nat -> nat -> T) * list Z * (nat -> nat -> T))).
  Notation triangular := (triangular zero one).
  (** ** the drivers *)
  Lemma getrf_col_ok (d : list T) l m n base lda A : located ColMajor l m n base lda -> inside l (length d) -> holds d l m n A ->
    match getrf_lib m n (rows m n A) with
    | None => getrf_col getrf_lib m n d base lda = Err Miscellaneous
    | Some (F, p) => exists d', getrf_col getrf_lib m n d base lda = Ok (d', p) /\ untouched_outside l d d' /\ holds d' l m n F
    end.
  Proof. intros W I H. unfold getrf_col. pose proof W as (_ & L & _). cbn [rows_of] in L. rewrite L. cbn [check bind]. rewrite (located_read _ _ _ _ _ _ _ W H). cbn [bind]. destruct (getrf_lib m n (rows m n A)) as [[F p]|]; auto.
    destruct (located_write _ _ _ _ _ _ A (fun i j _ => F i j) W I H) as (d' & -> & U & Hd). cbn [bind]. eauto. Qed.
  Lemma driver_getrf_ok o (d : list T) l m n lda A : nonempty m n -> handed o l d m n lda A ->
    match getrf_lib m n (rows m n A) with
    | None => driver_getrf getrf_lib o m n d (l_offset l) lda = Err Miscellaneous
    | Some (F, p) => exists d', driver_getrf getrf_lib o m n d (l_offset l) lda = Ok (d', p) /\ untouched_outside l d d' /\ holds d' l m n F
    end.
  Proof. intros NE HD. destruct o; cbn [driver_getrf]; [|destruct HD as (W & I & _ & H); now apply getrf_col_ok].
    destruct (to_col_ok d l m n lda A NE HD) as (c & -> & Ic & Hc). cbn [bind]. destruct (col_facts m n NE) as (Lc & _). pose proof (getrf_col_ok c _ m n 0 (ld_t m) A Lc Ic Hc) as X. destruct (getrf_lib m n (rows m n A)) as [[F p]|]; [|now rewrite X].
    destruct X as (c' & -> & U & Hc'). cbn [bind fst snd]. destruct (from_col_ok d c' l m n lda A F NE HD) as (d' & -> & Ud & Hd); auto. { destruct U as [U _]. now rewrite U. } cbn [bind]. eauto. Qed.
  Lemma getri_col_ok (d : list T) l n base lda p A : located ColMajor l n n base lda -> inside l (length d) -> holds d l n n A ->
    match getri_lib n (rows n n A) p with
    | None => getri_col getri_lib n d base lda p = Err Miscellaneous
    | Some F => exists d', getri_col getri_lib n d base lda p = Ok d' /\ untouched_outside l d d' /\ holds d' l n n F
    end.
  Proof. intros W I H. unfold getri_col. pose proof W as (_ & L & _). cbn [rows_of] in L. rewrite L. cbn [check bind]. rewrite (located_read _ _ _ _ _ _ _ W H). cbn [bind]. destruct (getri_lib n (rows n n A) p) as [F|]; auto.
    now apply (located_write _ _ _ _ _ _ A (fun i j _ => F i j)). Qed.
  Lemma driver_getri_ok o (d : list T) l n lda p A : nonempty n n -> handed o l d n n lda A ->
    match getri_lib n (rows n n A) p with
    | None => driver_getri getri_lib o n d (l_offset l) lda p = Err Miscellaneous
    | Some F => exists d', driver_getri getri_lib o n d (l_offset l) lda p = Ok d' /\ untouched_outside l d d' /\ holds d' l n n F
    end.
  Proof. intros NE HD. destruct o; cbn [driver_getri]; [|destruct HD as (W & I & _ & H); now apply getri_col_ok].
    destruct (to_col_ok d l n n lda A NE HD) as (c & -> & Ic & Hc). cbn [bind]. destruct (col_facts n n NE) as (Lc & _). pose proof (getri_col_ok c _ n 0 (ld_t n) p A Lc Ic Hc) as X. destruct (getri_lib n (rows n n A) p) as [F|]; [|now rewrite X].
    destruct X as (c' & -> & U & Hc'). cbn [bind]. apply (from_col_ok d c' l n n lda A F NE HD); auto. destruct U as [U _]. now rewrite U. Qed.
  Definition factored (u : uplo) (F A : nat -> nat -> T) (i j : nat) : T := if in_triangle u i j then F i j else A i j.
  Lemma potrf_col_ok (d : list T) l u n base lda A : located ColMajor l n n base lda -> inside l (length d) -> holds d l n n A ->
    match potrf_lib u n (rows n n (triangular u false A)) with
    | None => potrf_col zero one potrf_lib u n d base lda = Err Miscellaneous
    | Some F => exists d', potrf_col zero one potrf_lib u n d base lda = Ok d' /\ untouched_outside l d d' /\ holds d' l n n (factored u F A)
    end.
  Proof. intros W I H. unfold potrf_col. pose proof W as (_ & L & _). cbn [rows_of] in L. rewrite L. cbn [check bind]. rewrite (located_read_tri zero one _ _ _ _ _ u false _ W H). cbn [bind]. destruct (potrf_lib u n _) as [F|]; auto.
    now apply (located_write _ _ _ _ _ _ A (fun i j z => if in_triangle u i j then F i j else z)). Qed.
  Lemma driver_potrf_ok o (d : list T) l u n lda A : nonempty n n -> handed o l d n n lda A ->
    match potrf_lib u n (rows n n (triangular u false A)) with
    | None => driver_potrf zero one potrf_lib o u n d (l_offset l) lda = Err Miscellaneous
    | Some F => exists d', driver_potrf zero one potrf_lib o u n d (l_offset l) lda = Ok d' /\ untouched_outside l d d' /\ holds d' l n n (factored u F A)
    end.
  Proof. intros NE HD. destruct o; cbn [driver_potrf]; [|destruct HD as (W & I & _ & H); now apply potrf_col_ok].
    destruct (to_col_ok d l n n lda A NE HD) as (c & -> & Ic & Hc). cbn [bind]. destruct (col_facts n n NE) as (Lc & _). pose proof (potrf_col_ok c _ u n 0 (ld_t n) A Lc Ic Hc) as X. destruct (potrf_lib u n _) as [F|]; [|now rewrite X].
    destruct X as (c' & -> & U & Hc'). cbn [bind]. apply (from_col_ok d c' l n n lda A _ NE HD); auto. destruct U as [U _]. now rewrite U. Qed.
  Definition driver_solves (driver : order -> nat -> nat -> list T -> Z -> Z -> list T -> Z -> Z -> res (list T * list Z * list T)) (lib : nat -> nat -> (nat -> nat -> T) -> (nat -> nat -> T) -> option ((nat -> nat -> T) * list Z * (nat -> nat -> T))) : Prop :=
    forall o (a b : list T) la lb n nrhs lda ldb A B, nonempty n nrhs -> handed o la a n n lda A -> handed o lb b n nrhs ldb B ->
    match lib n nrhs A B with
    | None => driver o n nrhs a (l_offset la) lda b (l_offset lb) ldb = Err Miscellaneous
    | Some (F, p, X) => exists a' b', driver o n nrhs a (l_offset la) lda b (l_offset lb) ldb = Ok (a', p, b') /\ untouched_outside la a a' /\ holds a' la n n F /\ untouched_outside lb b b' /\ holds b' lb n nrhs X
    end.
  Definition gesv_of n nrhs (A B : nat -> nat -> T) := gesv_lib n nrhs (rows n n A) (rows n nrhs B).
  Definition sysv_of hermi u n nrhs (A B : nat -> nat -> T) := match sysv_lib hermi u n nrhs (rows n n (triangular u false A)) (rows n nrhs B) with Some (F, p, X) => Some (factored u F A, p, X) | None => None end.
  Lemma gesv_col_ok (a b : list T) la lb n nrhs base lda baseb ldb A B : located ColMajor la n n base lda -> inside la (length a) -> holds a la n n A -> located ColMajor lb n nrhs baseb ldb -> inside lb (length b) -> holds b lb n nrhs B ->
    match gesv_of n nrhs A B with
    | None => gesv_col gesv_lib n nrhs a base lda b baseb ldb = Err Miscellaneous
    | Some (F, p, X) => exists a' b', gesv_col gesv_lib n nrhs a base lda b baseb ldb = Ok (a', p, b') /\ untouched_outside la a a' /\ holds a' la n n F /\ untouched_outside lb b b' /\ holds b' lb n nrhs X
    end.
  Proof. intros W I H W' I' H'. unfold gesv_col, gesv_of. pose proof W as (_ & L & _). pose proof W' as (_ & L' & _). cbn [rows_of] in L, L'. rewrite L, L'. cbn [check bind andb]. rewrite (located_read _ _ _ _ _ _ _ W H), (located_read _ _ _ _ _ _ _ W' H'). cbn [bind]. destruct (gesv_lib n nrhs _ _) as [[[F p] X]|]; auto.
    destruct (located_write _ _ _ _ _ _ A (fun i j _ => F i j) W I H) as (a' & -> & U & Ha). cbn [bind]. destruct (located_write _ _ _ _ _ _ B (fun i j _ => X i j) W' I' H') as (b' & -> & U' & Hb). cbn [bind]. exists a', b'. auto. Qed.
  Lemma sysv_col_ok hermi u (a b : list T) la lb n nrhs base lda baseb ldb A B : located ColMajor la n n base lda -> inside la (length a) -> holds a la n n A -> located ColMajor lb n nrhs baseb ldb -> inside lb (length b) -> holds b lb n nrhs B ->
    match sysv_of hermi u n nrhs A B with
    | None => sysv_col zero one sysv_lib hermi u n nrhs a base lda b baseb ldb = Err Miscellaneous
    | Some (F, p, X) => exists a' b', sysv_col zero one sysv_lib hermi u n nrhs a base lda b baseb ldb = Ok (a', p, b') /\ untouched_outside la a a' /\ holds a' la n n F /\ untouched_outside lb b b' /\ holds b' lb n nrhs X
    end.
  Proof. intros W I H W' I' H'. unfold sysv_col, sysv_of. pose proof W as (_ & L & _). pose proof W' as (_ & L' & _). cbn [rows_of] in L, L'. rewrite L, L'. cbn [check bind andb]. rewrite (located_read_tri zero one _ _ _ _ _ u false _ W H), (located_read _ _ _ _ _ _ _ W' H'). cbn [bind]. destruct (sysv_lib hermi u n nrhs _ _) as [[[F p] X]|]; auto.
    destruct (located_write _ _ _ _ _ _ A (fun i j z => if in_triangle u i j then F i j else z) W I H) as (a' & -> & U & Ha). cbn [bind]. destruct (located_write _ _ _ _ _ _ B (fun i j _ => X i j) W' I' H') as (b' & -> & U' & Hb). cbn [bind]. exists a', b'. auto. Qed.
  Lemma driver_gesv_ok : driver_solves (driver_gesv gesv_lib) gesv_of.
  Proof. intros o a b la lb n nrhs lda ldb A B NE HA HB. assert (NN : nonempty n n) by (unfold nonempty in *; tauto). destruct o; cbn [driver_gesv]; [|destruct HA as (W & I & _ & H); destruct HB as (W' & I' & _ & H'); now apply gesv_col_ok].
    destruct (to_col_ok a la n n lda A NN HA) as (ca & -> & Ia & Hca). destruct (to_col_ok b lb n nrhs ldb B NE HB) as (cb & -> & Ib & Hcb). cbn [bind]. destruct (col_facts n n NN) as (La & _). destruct (col_facts n nrhs NE) as (Lb & _).
    pose proof (gesv_col_ok ca cb _ _ n nrhs 0 (ld_t n) 0 (ld_t n) A B La Ia Hca Lb Ib Hcb) as X. destruct (gesv_of n nrhs A B) as [[[F p] X0]|]; [|now rewrite X].
    destruct X as (a' & b' & -> & U & Ha & U' & Hb). cbn [bind fst snd]. destruct (from_col_ok a a' la n n lda A F NN HA) as (d & -> & Ud & Hd); auto. { destruct U as [U _]. now rewrite U. }
    cbn [bind]. destruct (from_col_ok b b' lb n nrhs ldb B X0 NE HB) as (d2 & -> & Ud2 & Hd2); auto. { destruct U' as [U' _]. now rewrite U'. } cbn [bind]. exists d, d2. auto. Qed.
  Lemma driver_sysv_ok hermi u : driver_solves (fun o => driver_sysv zero one sysv_lib hermi o u) (sysv_of hermi u).
  Proof. intros o a b la lb n nrhs lda ldb A B NE HA HB. assert (NN : nonempty n n) by (unfold nonempty in *; tauto). destruct o; cbn [driver_sysv]; [|destruct HA as (W & I & _ & H); destruct HB as (W' & I' & _ & H'); now apply sysv_col_ok].
    destruct (to_col_ok a la n n lda A NN HA) as (ca & -> & Ia & Hca). destruct (to_col_ok b lb n nrhs ldb B NE HB) as (cb & -> & Ib & Hcb). cbn [bind]. destruct (col_facts n n NN) as (La & _). destruct (col_facts n nrhs NE) as (Lb & _).
    pose proof (sysv_col_ok hermi u ca cb _ _ n nrhs 0 (ld_t n) 0 (ld_t n) A B La Ia Hca Lb Ib Hcb) as X. destruct (sysv_of hermi u n nrhs A B) as [[[F p] X0]|]; [|now rewrite X].
    destruct X as (a' & b' & -> & U & Ha & U' & Hb). cbn [bind fst snd]. destruct (from_col_ok a a' la n n lda A F NN HA) as (d & -> & Ud & Hd); auto. { destruct U as [U _]. now rewrite U. }
    cbn [bind]. destruct (from_col_ok b b' lb n nrhs ldb B X0 NE HB) as (d2 & -> & Ud2 & Hd2); auto. { destruct U' as [U' _]. now rewrite U'. } cbn [bind]. exists d, d2. auto. Qed.

  (** ** the wrappers *)
  Lemma mwrite_twice (x : mutable T) d d' : mwrite (mwrite x d) d' = mwrite x d'. Proof. now destruct x. Qed.
  Lemma getrf_ok r m n A : nonempty m n -> lapack_operand r m n A ->
    match getrf_lib m n (rows m n A) with
    | None => getrf dev dflt getrf_lib r = Err Miscellaneous
    | Some (F, p) => exists y, getrf dev dflt getrf_lib r = Ok (y, map (fun p => p - 1) p) /\ delivered (target_of r) y m n F /\ lapack_operand (RMut (mview y)) m n F
    end.
  Proof. intros NE HR. destruct (convert_ok dev dflt r m n A NE HR) as (x & Ex & Tx & Hx & (lda & El & HD) & Cx & Kx). unfold getrf. rewrite Ex. cbn [bind]. cbv zeta. rewrite El. cbn [unwrap_opt bind]. unfold extent. rewrite (holds_shape _ _ _ _ _ Hx). cbn [nth].
    pose proof (driver_getrf_ok _ _ _ _ _ _ _ NE HD) as X. destruct (getrf_lib m n (rows m n A)) as [[F p]|]; [|now rewrite X]. destruct X as (d' & -> & U & Hd). cbn [bind fst snd]. destruct (Cx d' F U Hd) as (y & Ey & Dy). rewrite Ey. cbn [bind]. exists y. split; auto. split; auto.
    destruct r as [t|t].
    - destruct Kx as (b & ->). cbn [mwrite clone_to_mut mview] in *. injection Ey as <-. cbn [mview]. apply tensor_ok_good in Tx as (G & I). split; [eapply untouched_ok; eauto|]. split; auto. cbn [t_layout]. unfold overwritable. unfold working_order, ld, ld_row in El. destruct (f_prefer (t_layout b)); auto. destruct (c_prefer (t_layout b)); auto. cbn [andb negb] in El. discriminate.
    - destruct HR as (Ht & _ & O). cbn [target_of delivered ref_of] in *. destruct Dy as (t' & -> & Lt & Ut & Hf). cbn [mview]. apply tensor_ok_good in Ht as (G & I). split; [cbn [ref_of]; destruct t' as [td tl]; cbn [t_layout t_data] in *; subst tl; eapply untouched_ok; eauto|]. split; auto. now rewrite Lt. Qed.
  Lemma getri_ok r n A p : nonempty n n -> lapack_operand r n n A ->
    match getri_lib n (rows n n A) (map (fun p => p + 1) p) with
    | None => getri dev dflt getri_lib r p = Err Miscellaneous
    | Some F => exists y, getri dev dflt getri_lib r p = Ok y /\ delivered (target_of r) y n n F
    end.
  Proof. intros NE HR. destruct (convert_ok dev dflt r n n A NE HR) as (x & Ex & Tx & Hx & (lda & El & HD) & Cx & _). unfold getri. rewrite Ex. cbn [bind]. cbv zeta. unfold extent. rewrite (holds_shape _ _ _ _ _ Hx). cbn [nth]. rewrite Nat.eqb_refl. cbn [check bind]. rewrite El. cbn [unwrap_opt bind].
    pose proof (driver_getri_ok _ _ _ _ _ (map (fun p => p + 1) p) _ NE HD) as X. destruct (getri_lib n _ _) as [F|]; [|now rewrite X]. destruct X as (d' & -> & U & Hd). cbn [bind]. destruct (Cx d' F U Hd) as (y & Ey & Dy). eauto. Qed.
  Lemma getri_err r m n A p : nonempty m n -> lapack_operand r m n A -> m <> n -> getri dev dflt getri_lib r p = Err InvalidLayout.
  Proof. intros NE HR D. destruct (convert_ok dev dflt r m n A NE HR) as (x & Ex & Tx & Hx & _). unfold getri. rewrite Ex. cbn [bind]. cbv zeta. unfold extent. rewrite (holds_shape _ _ _ _ _ Hx). cbn [nth]. replace (m =? n)%nat with false by lia. reflexivity. Qed.
  Lemma pivots (p : list Z) : map (fun p => p + 1) (map (fun p => p - 1) p) = p.
  Proof. rewrite map_map. rewrite (map_ext _ (fun x => x)) by lia. apply map_id. Qed.
  Lemma delivered_rewrite (target : option (tensor T)) y y2 m n F V : delivered target y m n F -> delivered (Some (mview y)) y2 m n V -> exists y3, clone_to_mut dev (mwrite y (t_data (mview y2))) = Ok y3 /\ delivered target y3 m n V.
  Proof. intros D (t2 & -> & L2 & U2 & H2). cbn [mview]. destruct target as [t0|]; cbn [delivered] in D.
    - destruct D as (t & -> & L & U & H). cbn [mwrite clone_to_mut mview] in *. eexists. split; [reflexivity|]. eexists. split; [reflexivity|]. cbn [t_layout t_data]. split; auto. rewrite L2, L in *. split; auto. eapply untouched_trans; eauto.
    - destruct D as (t & -> & Ht & H). cbn [mwrite clone_to_mut mview] in *. eexists. split; [reflexivity|]. eexists. split; [reflexivity|]. cbn [t_layout t_data]. apply tensor_ok_good in Ht as (G & I). split; [eapply untouched_ok; eauto|]. now rewrite L2 in H2. Qed.
  Lemma inv_ok r n A : nonempty n n -> lapack_operand r n n A ->
    match match getrf_lib n n (rows n n A) with None => None | Some (F, p) => getri_lib n (rows n n F) p end with
    | None => inv dev dflt getrf_lib getri_lib r = Err Miscellaneous
    | Some V => exists y, inv dev dflt getrf_lib getri_lib r = Ok y /\ delivered (target_of r) y n n V
    end.
  Proof. intros NE HR. unfold inv. pose proof (getrf_ok r n n A NE HR) as X. destruct (getrf_lib n n (rows n n A)) as [[F p]|]; [|now rewrite X]. destruct X as (y & -> & Dy & Oy). cbn [bind fst snd].
    pose proof (getri_ok (RMut (mview y)) n F (map (fun p => p - 1) p) NE Oy) as X. rewrite pivots in X. destruct (getri_lib n (rows n n F) p) as [V|]; [|now rewrite X]. destruct X as (y2 & -> & D2). cbn [bind]. eapply delivered_rewrite; eauto. Qed.
  Lemma inv_err r m n A : nonempty m n -> lapack_operand r m n A -> m <> n -> exists e, inv dev dflt getrf_lib getri_lib r = Err e.
  Proof. intros NE HR D. unfold inv. pose proof (getrf_ok r m n A NE HR) as X. destruct (getrf_lib m n (rows m n A)) as [[F p]|]; [|rewrite X; cbn [bind]; eauto]. destruct X as (y & -> & Dy & Oy). cbn [bind fst snd]. rewrite (getri_err _ m n F _ NE Oy D). cbn [bind]. eauto. Qed.
  Lemma solve_with_ok driver lib ra rb n nrhs A B : driver_solves driver lib -> nonempty n nrhs -> lapack_operand ra n n A -> not_broadcast ra -> lapack_operand rb n nrhs B ->
    match lib n nrhs A B with
    | None => solve_with dev dflt driver ra rb = Err Miscellaneous
    | Some (F, p, X) => exists ya yb, solve_with dev dflt driver ra rb = Ok (ya, p, yb) /\ delivered (target_of ra) ya n n F /\ delivered (target_of rb) yb n nrhs X
    end.
  Proof. intros DS NE HA NZ HB. assert (NN : nonempty n n) by (unfold nonempty in *; tauto). unfold solve_with. destruct (convert_ok dev dflt rb n nrhs B NE HB) as (xb & Exb & Txb & Hxb & (ldb & Elb & HDb) & Cxb & _). rewrite Exb. cbn [bind]. cbv zeta. set (o := working_order _) in *.
    destruct (convert_order_ok dev dflt ra n n A o NN HA NZ) as (xa & Exa & Txa & Hxa & (lda & Ela & HDa) & Cxa). rewrite Exa. cbn [bind]. unfold extent. rewrite (holds_shape _ _ _ _ _ Hxb), (holds_shape _ _ _ _ _ Hxa). cbn [nth]. rewrite same_shape_refl. cbn [check bind]. rewrite Ela, Elb. cbn [unwrap_opt bind].
    pose proof (DS o _ _ _ _ n nrhs lda ldb A B NE HDa HDb) as X. destruct (lib n nrhs A B) as [[[F p] X0]|]; [|now rewrite X]. destruct X as (a' & b' & -> & Ua & Ha & Ub & Hb). cbn [bind fst snd].
    destruct (Cxa a' F Ua Ha) as (ya & -> & Dya). cbn [bind]. destruct (Cxb b' X0 Ub Hb) as (yb & -> & Dyb). cbn [bind]. eauto. Qed.
  Lemma solve_with_err driver (ra rb : reference T) ma na n nrhs A B : nonempty ma na -> nonempty n nrhs -> lapack_operand ra ma na A -> not_broadcast ra -> lapack_operand rb n nrhs B -> (ma, na) <> (n, n) ->
    solve_with dev dflt driver ra rb = Err InvalidLayout.
  Proof. intros NA NE HA NZ HB D. unfold solve_with. destruct (convert_ok dev dflt rb n nrhs B NE HB) as (xb & Exb & Txb & Hxb & _). rewrite Exb. cbn [bind]. cbv zeta. set (o := working_order _) in *.
    destruct (convert_order_ok dev dflt ra ma na A o NA HA NZ) as (xa & Exa & Txa & Hxa & _). rewrite Exa. cbn [bind]. unfold extent. rewrite (holds_shape _ _ _ _ _ Hxb), (holds_shape _ _ _ _ _ Hxa). cbn [nth]. replace (same_shape [ma; na] [n; n]) with false; [reflexivity|]. unfold same_shape. destruct (list_eq_dec _ _ _); congruence. Qed.
  Lemma delivered_clone (target : option (tensor T)) y m n F : delivered target y m n F -> clone_to_mut dev y = Ok y.
  Proof. destruct target as [t0|]; cbn [delivered]; intros (t & -> & _); reflexivity. Qed.
  Lemma cholesky_ok r u n A : nonempty n n -> lapack_operand r n n A -> let u' := default_uplo dev u in
    match potrf_lib u' n (rows n n (triangular u' false A)) with
    | None => cholesky zero one dev dflt potrf_lib r u = Err Miscellaneous
    | Some F => exists y, cholesky zero one dev dflt potrf_lib r u = Ok y /\ delivered (target_of r) y n n (triangular u' false F)
    end.
  Proof. intros NE HR u'. destruct (convert_ok dev dflt r n n A NE HR) as (x & Ex & Tx & Hx & (lda & El & HD) & Cx & _). unfold cholesky, potrf. cbv zeta. change (default_uplo dev (Some (default_uplo dev u))) with (default_uplo dev u). fold u'. clearbody u'. clear u. rename u' into u. rewrite Ex. cbn [bind]. cbv zeta. unfold extent. rewrite (holds_shape _ _ _ _ _ Hx). cbn [nth]. rewrite Nat.eqb_refl. cbn [check bind]. rewrite El. cbn [unwrap_opt bind].
    pose proof (driver_potrf_ok _ _ _ u _ _ _ NE HD) as X. destruct (potrf_lib u n _) as [F|]; [|now rewrite X]. destruct X as (d' & -> & U & Hd). cbn [bind].
    pose proof Tx as G. apply tensor_ok_good in G as (G & I). assert (Tv : tensor_ok (mkTensor d' (t_layout (mview x)))) by (eapply untouched_ok; eauto). assert (Ev : mview (mwrite x d') = mkTensor d' (t_layout (mview x))) by now destruct x. rewrite Ev. set (v := mkTensor d' (t_layout (mview x))) in *.
    assert (Sv : t_shape v = [] ++ [n; n]) by (apply (holds_shape _ _ _ _ _ Hd)). assert (Jv : injective (t_layout v)) by (destruct HD as (W & _); eapply located_injective; eauto).
    assert (Av : anchored (t_layout v)). { intro Z0. exfalso. unfold t_shape in Sv. rewrite Sv in Z0. unfold size in Z0. cbn in Z0. destruct NE. nia. }
    assert (K : exists t, (match u with Upper => triu_mut zero v 0 | Lower => tril_mut zero v 0 end) = Ok t /\ untouched_outside (t_layout v) (t_data v) (t_data t) /\ holds (t_data t) (t_layout v) n n (triangular u false F)).
    { destruct u.
      - destruct (l_triu T zero v 0 [] n n Tv Av Jv Sv ltac:(right; lia)) as (t & Et & Lt & Ut & Qt). exists t. split; auto. split; auto. split; [exact Sv|]. intros i j Hi Hj. specialize (Qt [] i j ltac:(now apply valid_nil) Hi Hj). cbn [app] in Qt. unfold at_ in Qt. rewrite Lt in Qt. rewrite Qt. unfold Spec_Blas.triangular. cbn [andb in_triangle]. replace (Z.of_nat i + 0 <=? Z.of_nat j) with (i <=? j)%nat by lia. destruct (i <=? j)%nat eqn:Z0; auto. cbn [v t_data t_layout]. rewrite (proj2 Hd) by auto. unfold factored. cbn [in_triangle]. now rewrite Z0.
      - destruct (l_tril T zero v 0 [] n n Tv Av Jv Sv) as (t & Et & Lt & Ut & Qt). exists t. split; auto. split; auto. split; [exact Sv|]. intros i j Hi Hj. specialize (Qt [] i j ltac:(now apply valid_nil) Hi Hj). cbn [app] in Qt. unfold at_ in Qt. rewrite Lt in Qt. rewrite Qt. unfold Spec_Blas.triangular. cbn [andb in_triangle]. replace (Z.of_nat j <=? Z.of_nat i + 0) with (j <=? i)%nat by lia. destruct (j <=? i)%nat eqn:Z0; auto. cbn [v t_data t_layout]. rewrite (proj2 Hd) by auto. unfold factored. cbn [in_triangle]. now rewrite Z0. }
    destruct K as (t & Et & Ut & Ht). replace (unwrap match u with Upper => _ | Lower => _ end) with (Ok t) by (destruct u; now rewrite Et). cbn [bind]. rewrite mwrite_twice. cbn [v t_layout t_data] in *. apply Cx; auto. eapply untouched_trans; eauto. Qed.
End Lapack.
