(** Decompositions on the faer device. *)
From Coq Require Import String Ring_theory Ring.
From Verif Require Import Base Spec Spec_Matmul Spec_Tri Spec_Blas P_Index P_List M_Layout P_Layout P_Bounds P_Contig P_Strides M_Indexer P_Indexer M_Broadcast P_Broadcast M_Rearr P_Rearr P_BinOp M_Iter P_Iter M_Kernel P_Kernel Q_Kernel M_Tensor P_Tensor Q_Tensor Q_Copy P_Arg P_Axes M_Matmul P_Matmul P_Matmul2 P_Matmul3 P_Matmul4 Q_Matmul M_Tri P_Tri P_Tri2 P_Tri3 P_Tri4 Q_Tri M_Fast P_Fast P_Fast2 P_Fast3 P_Creation M_Blas Spec_BlasApi P_Blas P_Blas2 P_Blas3 P_Blas4 M_Reduce Q_Reduce M_Linalg Spec_Linalg P_Linalg P_Linalg2 P_Linalg3 Q_Indexer P_Linalg4 P_Linalg5 P_Linalg6 M_Faer Spec_Faer P_Faer.
Local Open Scope Z_scope.

(** an empty tensor that points into its storage *)
Definition rooted {T} (t : tensor T) : Prop := size (t_shape t) <> 0%nat \/ 0 <= l_offset (t_layout t) <= Z.of_nat (length (t_data t)).
Lemma matrix_copy {T} (t c : tensor T) m n A : is_matrix t m n A -> tensor_ok c -> t_shape c = t_shape t -> (forall ix, valid (t_shape t) ix -> at_ c ix = at_ t ix) -> is_matrix c m n A.
Proof. intros (Ht & H) Tc Sc Q. split; auto. now apply (holds_copy t). Qed.
Lemma vector_copy {T} (t c : tensor T) n f : is_vector t n f -> tensor_ok c -> t_shape c = t_shape t -> (forall ix, valid (t_shape t) ix -> at_ c ix = at_ t ix) -> is_vector c n f.
Proof. intros (Ht & S & H) Tc Sc Q. split; [|split]; auto; [congruence|]. intros i Hi. rewrite Q; auto. rewrite S. constructor; [auto|constructor]. Qed.
Lemma matrix_ext {T} (t : tensor T) m n A B : is_matrix t m n A -> (forall i j, (i < m)%nat -> (j < n)%nat -> A i j = B i j) -> is_matrix t m n B.
Proof. intros (Ht & H) Q. split; auto. eapply holds_ext; eauto. Qed.
Lemma into_owned_copy {T} k dflt (t : tensor T) : tensor_ok t -> exists c, into_owned k dflt t = Ok c /\ tensor_ok c /\ t_shape c = t_shape t /\ (forall ix, valid (t_shape t) ix -> at_ c ix = at_ t ix) /\ (rooted t -> rooted c) /\
  ((t_layout c = t_layout t /\ t_data c = t_data t) \/ (l_offset (t_layout c) = 0 /\ injective (t_layout c))).
Proof. intros Ht. destruct (l_into_owned T k dflt t Ht) as (c & Ec & Tc & Sc & Qc & Lc). exists c. split; auto. split; auto. split; auto. split; auto. unfold into_owned in Ec.
  destruct (unwrap (bounds_index (t_layout t))) as [b| |]; cbn [bind] in Ec; try discriminate. destruct (_ && _).
  - injection Ec as <-. auto.
  - destruct (asarray k dflt t OK) as [c'| |] eqn:E; cbn [unwrap] in Ec; try discriminate. injection Ec as ->. apply asarray_layout in E. apply tensor_ok_good in Ht as (G & _).
    destruct (copy_layout_good k dflt (t_layout t) OK G ltac:(auto)) as (l' & El & _ & O & _ & J & _). assert (l' = t_layout c) as -> by congruence. split; [|now right]. intros _. unfold rooted. rewrite O. right. lia. Qed.
Lemma settle_copy {T} dflt (t : tensor T) o : tensor_ok t -> rooted t -> exists c, settle dflt t o = Ok c /\ tensor_ok c /\ t_shape c = t_shape t /\ (forall ix, valid (t_shape t) ix -> at_ c ix = at_ t ix).
Proof. intros Ht R. unfold settle, contig_owned. destruct (l_change_contig T Fixed dflt t o Ht R) as (c & -> & Tc & Sc & _ & _ & Q). cbn [bind]. destruct (l_into_owned T Fixed dflt c Tc) as (c2 & -> & T2 & S2 & Q2 & _). exists c2. split; auto. split; auto. split; [congruence|].
  intros ix V. rewrite Q2; auto. now rewrite Sc. Qed.
Lemma settle_matrix {T} dflt (t : tensor T) o m n A : is_matrix t m n A -> rooted t -> exists c, settle dflt t o = Ok c /\ is_matrix c m n A.
Proof. intros H R. destruct (settle_copy dflt t o (proj1 H) R) as (c & -> & Tc & Sc & Q). exists c. split; auto. now apply (matrix_copy t). Qed.
Lemma settle_vector {T} dflt (t : tensor T) o n f : is_vector t n f -> rooted t -> exists c, settle dflt t o = Ok c /\ is_vector c n f.
Proof. intros H R. destruct (settle_copy dflt t o (proj1 H) R) as (c & -> & Tc & Sc & Q). exists c. split; auto. now apply (vector_copy t). Qed.
Lemma offset_rooted {T} (t : tensor T) : l_offset (t_layout t) = 0 -> rooted t. Proof. intro H. right. rewrite H. lia. Qed.

(** new matrices and vectors *)
Lemma good1 n : good (mkLayout [n] [1] 0).
Proof. apply good_intro; [reflexivity|]. intros _. split; [intros ix V; cbn [l_shape] in V; inversion V as [|i d ? ? ? V']; subst; inversion V'; subst; unfold addr; cbn -[Z.mul]; lia|].
  unfold chk, nz, nzp. cbn [combine l_shape l_stride filter fst snd]. destruct (Nat.ltb_spec 1 n); cbn; eexists; (split; [reflexivity|]); cbn; lia. Qed.
Lemma column_ok {T} n (s : nat -> T) : exists t, column n s = Ok t /\ is_vector t n s /\ t_layout t = mkLayout [n] [1] 0.
Proof. unfold column, col_into_rstsr. pose proof (good1 n) as G. rewrite (layout_new_good _ _ _ G). cbn [unwrap bind]. assert (B : bounds_index (mkLayout [n] [1] 0) = Ok (0, Z.of_nat n)). { unfold bounds_index. cbn -[Z.mul Z.of_nat Z.add]. destruct n; [reflexivity|]. cbn -[Z.mul Z.of_nat Z.add]. replace (0 <=? 0) with true by lia. do 2 f_equal. lia. }
  rewrite B. cbn [unwrap bind snd]. unfold vec_at. rewrite map_length, seq_length. replace (_ && _) with true by lia. cbn [bind]. change (Z.to_nat 0) with 0%nat. cbn [skipn]. rewrite firstn_all2 by (rewrite map_length, seq_length; lia).
  eexists. split; [reflexivity|]. split; [|reflexivity]. split; [|split; [reflexivity|]].
  - apply tensor_ok_good. split; auto. cbn [t_layout t_data]. intros ix V. cbn [l_shape] in V. inversion V as [|i d ? ? H V']; subst. inversion V'; subst. unfold addr. cbn -[Z.mul Z.of_nat]. rewrite map_length, seq_length. lia.
  - intros i Hi. unfold at_, elem, addr. cbn -[Z.mul Z.of_nat peek seq]. unfold peek. replace (_ <? 0) with false by lia. replace (Z.to_nat _) with i by lia. rewrite nth_error_map. now rewrite nth_error_seq by lia. Qed.
Section New.
  Context {T : Type} (cap : nat -> nat) (pad : nat -> T) (CAP : forall k, (k <= cap k)%nat).
  Notation fm_new := (fm_new cap pad).
  Lemma fm_new_holds m n X : fm_holds (fm_new m n X) m n X.
  Proof. split; [|split]; auto. intros i j Hi Hj. unfold fm_pos, M_Faer.fm_new. cbn [fm_ptr fm_rs fm_cs fm_data]. pose proof (CAP m). set (c := cap m) in *. replace (0 + Z.of_nat i * 1 + Z.of_nat j * Z.of_nat c) with (Z.of_nat (i + j * c)) by lia.
    unfold peek. replace (_ <? 0) with false by lia. rewrite Nat2Z.id. rewrite nth_error_map. rewrite nth_error_seq by nia. cbn [option_map]. rewrite Nat.add_0_l. rewrite Nat.mod_add by lia. rewrite Nat.mod_small by lia. rewrite Nat.div_add by lia. rewrite Nat.div_small by lia.
    replace (i <? m)%nat with true by lia. reflexivity. Qed.
  Lemma fm_new_free m n X : fm_free (fm_new m n X).
  Proof. intros i j i' j'. unfold fm_pos, M_Faer.fm_new. cbn [fm_ptr fm_rs fm_cs fm_rows fm_cols]. pose proof (CAP m). set (c := cap m) in *. intros. assert (j = j') by nia. split; nia. Qed.
  (** a matrix with the strides of a new one *)
  Definition like_new (f : fmat T) (m n : nat) : Prop := fm_ptr f = 0 /\ fm_rs f = 1 /\ fm_cs f = Z.of_nat (cap m) /\ fm_rows f = m /\ fm_cols f = n /\ length (fm_data f) = (cap m * n)%nat.
  Lemma fm_new_like m n X : like_new (fm_new m n X) m n.
  Proof. unfold like_new, M_Faer.fm_new. cbn [fm_ptr fm_rs fm_cs fm_rows fm_cols fm_data]. rewrite map_length, seq_length. auto 10. Qed.
  Lemma like_rstsr f m n A : like_new f m n -> fm_holds f m n A -> exists t, into_rstsr f = Ok t /\ is_matrix t m n A /\ t_layout t = mkLayout [m; n] [1; Z.of_nat (cap m)] 0.
  Proof. intros (P & R & C & _ & _ & _) H. destruct (into_rstsr_ok f m n A) as (t & E & M & L); auto; [rewrite R, C; now apply good_columns|rewrite P; lia|]. rewrite R, C in L. eauto. Qed.
  Lemma new_rstsr m n X : exists t, into_rstsr (fm_new m n X) = Ok t /\ is_matrix t m n X /\ t_layout t = mkLayout [m; n] [1; Z.of_nat (cap m)] 0.
  Proof. apply like_rstsr; [apply fm_new_like|apply fm_new_holds]. Qed.
End New.

(** the degree of parallelism *)
Lemma enter_run {X} pool (f : par -> globally X) g : gbind (enter pool) f g = f g (active pool g).
Proof. destruct pool; reflexivity. Qed.
Lemma leave_run {X} pool g (f : unit -> globally X) : gbind (leave pool g) f (active pool g) = f tt g.
Proof. destruct pool; reflexivity. Qed.
Lemma lift_ok {X Y} (r : res X) x (f : X -> globally Y) g : r = Ok x -> gbind (glift r) f g = f x g.
Proof. now intros ->. Qed.
Lemma call_run {X Y} (c : par -> res X) (f : X -> globally Y) g : gbind (gcall c) f g = match c g with Ok x => f x g | Err e => (Err e, g) | Panic => (Panic, g) end.
Proof. unfold gbind, gcall. now destruct (c g). Qed.
Lemma map_vector {A B} dflt (g : A -> B) (t : tensor A) n s : is_vector t n s -> exists c, map_f Fixed dflt g t = Ok c /\ is_vector c n (fun i => g (s i)) /\ l_offset (t_layout c) = 0 /\ injective (t_layout c).
Proof. intros (Ht & S & H). destruct (l_map A B Fixed dflt g t Ht) as (c & Ec & Tc & Sc & Q). exists c. split; auto. split.
  - split; [|split]; auto; [congruence|]. intros i Hi. destruct (Q [i]) as (x & X & Y); [rewrite S; constructor; [auto|constructor]|]. rewrite H in X by auto. congruence.
  - apply map_layout in Ec. apply tensor_ok_good in Ht as (G & _). destruct (copy_layout_good Fixed dflt (t_layout t) OK G ltac:(auto)) as (l' & El & _ & O & _ & J & _). assert (l' = t_layout c) as -> by congruence. auto. Qed.
Lemma map_matrix {A B} dflt (g : A -> B) (t : tensor A) m n F : is_matrix t m n F -> exists c, map_f Fixed dflt g t = Ok c /\ is_matrix c m n (fun i j => g (F i j)) /\ l_offset (t_layout c) = 0 /\ injective (t_layout c) /\ good (t_layout c) /\ covers (t_layout c) (size [m; n]).
Proof. intros (Ht & S & H). destruct (l_map A B Fixed dflt g t Ht) as (c & Ec & Tc & Sc & Q). exists c. split; auto. unfold t_shape in *. split.
  - split; auto. split; [congruence|]. intros i j Hi Hj. destruct (Q [i; j]) as (x & X & Y); [rewrite S; now apply valid_pair|]. unfold at_ in *. rewrite H in X by auto. congruence.
  - apply map_layout in Ec. apply tensor_ok_good in Ht as (G & _). destruct (copy_layout_good Fixed dflt (t_layout t) OK G ltac:(auto)) as (l' & El & G' & O & _ & J & Cv). assert (l' = t_layout c) as -> by congruence. rewrite S in Cv. auto. Qed.
(** a matrix without gaps, seen as a vector *)
Lemma transposed_matrix {T} (t : tensor T) m n A : is_matrix t m n A -> is_matrix (transposed t) n m (fun i j => A j i).
Proof. intros (Ht & H). split; [now apply transposed_ok|]. now apply transposed_holds. Qed.
