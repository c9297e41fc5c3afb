(** Writing back, and the product wrappers. *)
From Verif Require Import Base Spec Spec_Matmul Spec_Tri Spec_Blas P_Index P_List M_Layout P_Layout P_Bounds P_Contig P_Strides M_Indexer P_Indexer M_Broadcast P_Broadcast M_Rearr P_Rearr P_BinOp M_Iter P_Iter M_Kernel P_Kernel Q_Kernel M_Tensor P_Tensor Q_Tensor Q_Copy P_Arg P_Axes M_Matmul P_Matmul P_Matmul2 P_Matmul3 P_Matmul4 Q_Matmul M_Tri P_Tri P_Tri2 P_Tri3 P_Tri4 Q_Tri M_Fast P_Fast P_Fast2 P_Fast3 P_Creation M_Blas Spec_BlasApi P_Blas.
Local Open Scope Z_scope.

Section Deliver.
  Context {T : Type} (dev : order).
  Definition commits (x : mutable T) (target : option (tensor T)) (m n : nat) : Prop := forall d' F,
    untouched_outside (t_layout (mview x)) (t_data (mview x)) d' -> holds d' (t_layout (mview x)) m n F -> exists y, clone_to_mut dev (mwrite x d') = Ok y /\ delivered target y m n F.
  Lemma commits_owned (c : tensor T) m n : tensor_ok c -> commits (Owned c) None m n.
  Proof. intros Tc d' F U H. cbn [mview mwrite clone_to_mut] in *. eexists. split; [reflexivity|]. eexists. split; [reflexivity|]. split; auto. apply tensor_ok_good in Tc as (G & I). eapply untouched_ok; eauto. Qed.
  Lemma commits_mut (c : tensor T) m n : commits (MutRef c) (Some c) m n.
  Proof. intros d' F U H. cbn [mview mwrite clone_to_mut] in *. eexists. split; [reflexivity|]. eexists. split; [reflexivity|]. auto. Qed.
  Lemma broadcasts_same o s : broadcasts o s s s.
  Proof. split; [now rewrite Nat.max_id|]. intros k. left. auto. Qed.
  Lemma commits_clone (t b : tensor T) m n : tensor_ok t -> tensor_ok b -> l_shape (t_layout t) = [m; n] -> ~ In 0 (l_stride (t_layout t)) -> commits (ToBeCloned t b) (Some t) m n.
  Proof. intros Ht Hb E NZ d' F U H. cbn [mview mwrite clone_to_mut] in *. set (b' := mkTensor d' (t_layout b)).
    assert (Tb : tensor_ok b'). { apply tensor_ok_good in Hb as (G & I). eapply untouched_ok; eauto. }
    assert (Sb : t_shape b' = t_shape t). { unfold t_shape. cbn [b' t_layout]. rewrite E. now apply holds_shape in H. }
    pose proof (l_assign T T Fixed dev (fun x => x) t b' Ht Tb) as A. rewrite Sb in A. destruct (assign_f Fixed dev (fun x : T => x) t b') as [t'|e|]; [|exfalso; destruct A as [A|A]; [auto|apply A, broadcasts_same]|contradiction].
    destruct A as (_ & _ & Lt & A). destruct (A (broadcasts_same dev _)) as (Ut & Q). cbn [unwrap bind]. eexists. split; [reflexivity|]. exists t'. split; auto. split; auto. split; auto.
    rewrite Lt. split; auto. intros i j Hi Hj. destruct (Q [i; j]) as (y & Y1 & Y2). { unfold t_shape. rewrite E. now apply valid_pair. }
    unfold at_ in Y1, Y2. rewrite source_index_self in Y1. 2:{ unfold t_shape. rewrite E. now apply valid_pair. } cbn [b' t_data t_layout] in Y1. rewrite (proj2 H) in Y1 by auto. injection Y1 as <-. now rewrite Lt in Y2. Qed.
End Deliver.

(** ** the output of a product *)
Lemma packed_reverse l m n : wf l -> located RowMajor l m n 0 (Z.of_nat n) -> located ColMajor (reverse_axes l) n m 0 (Z.of_nat n).
Proof. intros W (E & L & Q). destruct (layout2 l m n W E) as (s & t & El). rewrite El in *. rewrite reverse2. split; [reflexivity|]. split; [exact L|]. intros i j Hi Hj. specialize (Q j i Hj Hi). rewrite addr2 in *. cbn [win] in *. lia. Qed.
Lemma compact_col l m n : wf l -> nonempty m n -> l_shape l = [m; n] -> compact l m n -> f_prefer l = true -> located ColMajor l m n 0 (Z.of_nat m).
Proof. intros W [N1 N2] E C P. split; auto. split; [unfold at_least, rows_of; lia|]. intros i j Hi Hj. cbn [win]. unfold window. destruct C as [C|C]; [|rewrite C by auto; lia]. rewrite C by auto.
  destruct (layout2 l m n W E) as (s & t & El). assert (D : m = 1%nat \/ n = 1%nat).
  { destruct (Nat.eq_dec m 1) as [|D1]; auto. destruct (Nat.eq_dec n 1) as [|D2]; auto. exfalso. assert (H1 := C 1%nat 0%nat ltac:(lia) ltac:(lia)). assert (H0 := C 0%nat 0%nat ltac:(lia) ltac:(lia)). rewrite El in H0, H1, P. rewrite addr2 in H0, H1. apply prefer2 in P as [P _]; auto. specialize (P D1). lia. }
  clear El P. destruct D as [D|D]; subst; [replace i with 0%nat by lia|replace j with 0%nat by lia]; lia. Qed.
Lemma compact_reverse l m n : wf l -> l_shape l = [m; n] -> compact l m n -> compact (reverse_axes l) n m.
Proof. intros W E C. destruct (layout2 l m n W E) as (s & t & El). rewrite El in *. rewrite reverse2. destruct C as [C|C]; [right|left]; intros i j Hi Hj; specialize (C j i Hj Hi); rewrite addr2 in *; lia. Qed.

Section Output.
  Context {T : Type} (zero : T) (dev dflt : order).
  Lemma output_transposed (c : option (tensor T)) m n C : output_ok c zero m n C -> output_ok (option_map transposed c) zero n m (fun i j => C j i).
  Proof. destruct c as [c|]; cbn [option_map output_ok]; [|auto]. intros (Tc & H & NZ & F). pose proof (holds_shape _ _ _ _ _ H) as E. pose proof Tc as G. apply tensor_ok_good in G as (G & _). assert (W : wf (t_layout c)) by apply G.
    split; [now apply transposed_ok|]. split; [now apply transposed_holds|]. cbn [transposed t_layout]. split.
    - destruct (layout2 _ _ _ W E) as (s & t & El). rewrite El in *. rewrite reverse2. cbn [l_stride] in *. intros I. apply NZ. cbn in *. tauto.
    - destruct F as [F|[F1 F2]]; [left; now apply compact_reverse|right]. pose proof (reverse_prefers RowMajor _ _ _ W E) as P1. pose proof (reverse_prefers ColMajor _ _ _ W E) as P2. cbn [prefers] in P1, P2. split; congruence. Qed.
  Lemma delivered_transposed (c : option (tensor T)) (y : mutable T) m n F : match c with Some c => tensor_ok c /\ l_shape (t_layout c) = [m; n] | None => True end ->
    delivered (option_map transposed c) y n m F -> delivered c (mtransposed y) m n (fun i j => F j i).
  Proof. destruct c as [c|]; cbn [option_map delivered].
    - intros (Tc & E) (t & -> & Lt & U & H). apply tensor_ok_good in Tc as (G & _). exists (transposed t). split; [reflexivity|]. cbn [transposed t_layout t_data] in *. rewrite Lt in *. rewrite reverse_twice. split; auto.
      assert (W : wf (reverse_axes (t_layout c))) by apply (reverse_good _ G).
      split; [exact (rev_untouched _ _ _ (good_wf _ G) U)|]. pose proof (holds_transposed _ _ _ _ _ W H) as H'. rewrite reverse_twice in H'. exact H'.
    - intros _ (t & -> & Tt & H). exists (transposed t). split; [reflexivity|]. split; [now apply transposed_ok|]. now apply (transposed_holds t n m F). Qed.
  Lemma product_output_ok (c : option (tensor T)) m n C : nonempty m n -> output_ok c zero m n C ->
    exists x, product_output zero dev dflt c m n = Ok x /\ tensor_ok (mview x) /\ located ColMajor (t_layout (mview x)) m n 0 (Z.of_nat m) /\ holds (t_data (mview x)) (t_layout (mview x)) m n C /\ commits dev x c m n.
  Proof. intros NE O. destruct c as [c|]; cbn [output_ok product_output] in *.
    - destruct O as (Tc & H & NZ & F). pose proof (holds_shape _ _ _ _ _ H) as E. pose proof Tc as G. apply tensor_ok_good in G as (G & _). assert (W : wf (t_layout c)) by apply G.
      unfold extent. rewrite E. cbn [nth]. rewrite !Nat.eqb_refl. cbn [check bind]. destruct (f_prefer (t_layout c)) eqn:P.
      + exists (MutRef c). split; auto. cbn [mview]. split; auto. split; [destruct F as [F|[_ F]]; [|congruence]; now apply compact_col|]. split; auto. apply commits_mut.
      + destruct (contig_owned_ok dev dflt c m n C ColMajor Tc NE H) as (b & Eb & Tb & Pb & Hb). rewrite Eb. cbn [bind]. exists (ToBeCloned c b). split; auto. cbn [mview]. split; auto. split; [apply Pb|]. split; auto. now apply commits_clone.
    - eexists. split; [reflexivity|]. cbn [mview t_data t_layout]. destruct NE as [N1 N2]. pose proof (contig_packed ColMajor m n N1 N2) as P. change (new_contig Fixed [m; n] 0 ColMajor) with (new_f_contig Fixed [m; n] 0) in P.
      assert (Tx : tensor_ok (mkTensor (repeat zero (m * n)) (new_f_contig Fixed [m; n] 0))). { destruct (contig_facts Fixed [m; n] ColMajor) as (Gl & _ & Cl & _ & _). change (new_contig Fixed [m; n] 0 ColMajor) with (new_f_contig Fixed [m; n] 0) in *. apply tensor_ok_good. split; auto. cbn [t_data t_layout]. rewrite repeat_length. replace (m * n)%nat with (size [m; n]) by (unfold size; cbn; lia). now apply covers_inside. }
      split; auto. split; [apply P|]. split; [|now apply commits_owned]. split; [reflexivity|]. intros i j Hi Hj. unfold elem. rewrite O by auto. apply tensor_ok_good in Tx as (_ & I). cbn [t_data t_layout] in I. specialize (I [i; j] (valid_pair _ _ _ _ Hi Hj)). rewrite repeat_length in I. now apply peek_repeat. Qed.
End Output.

(** ** products *)
Lemma lib_op_rows {T} (zero : T) (conj : T -> T) t m n A i j : (if match t with NoTrans | ConjOnly => true | _ => false end then (i < m)%nat /\ (j < n)%nat else (j < m)%nat /\ (i < n)%nat) -> lib_op zero conj t (rows m n A) i j = op_of conj t A i j.
Proof. destruct t; intros [H1 H2]; unfold lib_op, Spec_Blas.op_of; now rewrite entry_rows. Qed.
Lemma lib_sum_ext {T} (zero : T) add K f g : (forall k, (k < K)%nat -> f k = g k) -> lib_sum zero add K f = sum_over zero add K g.
Proof. intro H. unfold lib_sum, sum_over, total. f_equal. apply map_ext_in. intros k Hk. apply in_seq in Hk. apply H. lia. Qed.
Lemma sum_over_ext {T} (zero : T) add K f g : (forall k, (k < K)%nat -> f k = g k) -> sum_over zero add K f = sum_over zero add K g.
Proof. intro H. rewrite <- (lib_sum_ext zero add K f g H). reflexivity. Qed.
Section Products.
  Context {T : Type} (zero : T) (add mul : T -> T -> T) (conj : T -> T) (dev dflt : order).
  Notation op_of := (op_of conj).
  Notation product := (product zero add mul).
  Notation combined := (combined add mul).
  Lemma gemm_internal_ok a b c alpha beta ta tb ma na A mb nb B m n k C : tensor_ok a -> f_prefer (t_layout a) = true -> l_offset (t_layout a) = 0 -> holds (t_data a) (t_layout a) ma na A -> nonempty ma na -> ta <> ConjOnly ->
    tensor_ok b -> f_prefer (t_layout b) = true -> l_offset (t_layout b) = 0 -> holds (t_data b) (t_layout b) mb nb B -> nonempty mb nb -> tb <> ConjOnly ->
    op_shape ta ma na = (m, k) -> op_shape tb mb nb = (k, n) -> output_ok c zero m n C ->
    exists y, gemm_internal zero add mul conj dev dflt a b c alpha beta ta tb = Ok y /\ delivered c y m n (combined alpha beta (product k (op_of ta A) (op_of tb B)) C).
  Proof. intros Ha Pa Oa HA NA Na Hb Pb Ob HB NB Nb Sa Sb HC.
    pose proof (holds_shape _ _ _ _ _ HA) as Ea. pose proof (holds_shape _ _ _ _ _ HB) as Eb.
    apply tensor_ok_good in Ha as (Ga & _). apply tensor_ok_good in Hb as (Gb & _).
    destruct (prefers_ld ColMajor _ ma na Ga Ea (proj1 NA) (proj2 NA) Pa) as (lda & La & Wa). destruct (prefers_ld ColMajor _ mb nb Gb Eb (proj1 NB) (proj2 NB) Pb) as (ldb & Lb & Wb). rewrite Oa in Wa. rewrite Ob in Wb. cbn [ld] in La, Lb.
    assert (NC : nonempty m n). { unfold nonempty in *. destruct ta, tb; cbn in Sa, Sb; injection Sa; injection Sb; intros; subst; tauto. }
    destruct (product_output_ok zero dev dflt c m n C NC HC) as (x & Ex & Tx & Wx & Hx & Cx).
    unfold gemm_internal. cbv zeta. rewrite Pa, Pb, La, Lb. unfold extent. rewrite Ea, Eb. cbn [check bind nth unwrap_opt].
    pose proof (located_read _ _ _ _ _ _ _ Wa HA) as RA. pose proof (located_read _ _ _ _ _ _ _ Wb HB) as RB. pose proof Wa as (_ & AA & _). pose proof Wb as (_ & AB & _). pose proof Wx as (_ & AX & _). cbn [rows_of] in AA, AB, AX.
    apply tensor_ok_good in Tx as (Gx & Ix).
    set (new := fun i j z => add (mul alpha (lib_sum zero add k (fun l => mul (lib_op zero conj ta (rows ma na A) i l) (lib_op zero conj tb (rows mb nb B) l j)))) (mul beta z)).
    destruct (located_write _ _ _ _ _ _ C new Wx Ix Hx) as (d' & Ed & Ud & Hd).
    assert (F : driver_gemm zero add mul conj ta tb m n k alpha (t_data a) lda (t_data b) ldb beta (t_data (mview x)) (Z.of_nat m) = Ok d').
    { unfold driver_gemm. destruct ta, tb; cbn in Sa, Sb; injection Sa; injection Sb; intros; subst; try contradiction; cbn [fst snd]; rewrite AA, AB, AX, RA, RB; cbn [andb bind]; exact Ed. }
    destruct (Cx d' (combined alpha beta (product k (op_of ta A) (op_of tb B)) C) Ud) as (y & Ey & Dy).
    { eapply holds_ext; [exact Hd|]. intros i j Hi Hj. unfold new, Spec_BlasApi.combined, Spec_Blas.product. f_equal. f_equal. apply lib_sum_ext. intros l Hl. f_equal; apply lib_op_rows; destruct ta, tb; cbn in Sa, Sb; injection Sa; injection Sb; intros; subst; auto. }
    exists y. split; auto. destruct ta, tb; cbn in Sa, Sb; injection Sa; injection Sb; intros; subst; try contradiction; cbn [bind check]; rewrite ?Nat.eqb_refl; cbn [bind check]; rewrite Ex; cbn [bind]; rewrite F; cbn [bind]; exact Ey. Qed.
  Lemma op_of_transposed t W i j : op_of t (fun i j => W j i) i j = op_of t W j i.
  Proof. now destruct t. Qed.
  Lemma op_shape_swap t m n x y : op_shape t m n = (x, y) -> op_shape t n m = (y, x).
  Proof. destruct t; cbn; congruence. Qed.
  Lemma output_shape (c : option (tensor T)) m n C : output_ok c zero m n C -> match c with Some c => tensor_ok c /\ l_shape (t_layout c) = [m; n] | None => True end.
  Proof. destruct c; cbn [output_ok]; auto. intros (H & H1 & _). split; auto. now apply holds_shape in H1. Qed.
  Lemma delivered_ext (c : option (tensor T)) y m n F G : delivered c y m n F -> (forall i j, (i < m)%nat -> (j < n)%nat -> F i j = G i j) -> delivered c y m n G.
  Proof. destruct c as [c|]; cbn [delivered].
    - intros (t & E & L & U & H) X. exists t. split; auto. split; auto. split; auto. eapply holds_ext; eauto.
    - intros (t & E & L & H) X. exists t. split; auto. split; auto. eapply holds_ext; eauto. Qed.
  Lemma gemm_ok (a b : tensor T) c alpha beta ta tb o ma na A mb nb B m n k C : (forall x y, mul x y = mul y x) ->
    tensor_ok a -> at_start (t_layout a) -> holds (t_data a) (t_layout a) ma na A -> nonempty ma na -> ta <> ConjOnly ->
    tensor_ok b -> at_start (t_layout b) -> holds (t_data b) (t_layout b) mb nb B -> nonempty mb nb -> tb <> ConjOnly ->
    op_shape ta ma na = (m, k) -> op_shape tb mb nb = (k, n) -> output_ok c zero m n C ->
    exists y, gemm zero add mul conj dev dflt a b c alpha beta ta tb o = Ok y /\ delivered c y m n (combined alpha beta (product k (op_of ta A) (op_of tb B)) C).
  Proof. intros MC Ha Sa HA NA Na Hb Sb HB NB Nb Ea Eb HC. unfold gemm. set (out := get_output_order _ _ _). cbv zeta.
    destruct (flip_trans_ok dev dflt conj out ta a ma na A Ha NA HA Na) as (ta' & wa & m1 & n1 & W1 & F1 & T1 & P1 & H1 & N1 & NE1 & S1 & Q1 & O1 & _).
    destruct (flip_trans_ok dev dflt conj out tb b mb nb B Hb NB HB Nb) as (tb' & wb & m2 & n2 & W2 & F2 & T2 & P2 & H2 & N2 & NE2 & S2 & Q2 & O2 & _).
    rewrite F1, F2. cbn [bind fst snd]. clear F1 F2. rewrite Ea in S1. rewrite Eb in S2. destruct out.
    - pose proof (output_transposed zero c m n C HC) as HC'. pose proof (transposed_prefers wa m1 n1 ColMajor T1 (holds_shape _ _ _ _ _ H1)) as X1. pose proof (transposed_prefers wb m2 n2 ColMajor T2 (holds_shape _ _ _ _ _ H2)) as X2. cbn [prefers] in *. rewrite P1 in X1. rewrite P2 in X2.
      destruct (gemm_internal_ok (transposed wb) (transposed wa) (option_map transposed c) alpha beta tb' ta' n2 m2 (fun i j => W2 j i) n1 m1 (fun i j => W1 j i) n m k (fun i j => C j i)) as (y & Ey & Dy);
        auto using transposed_ok, transposed_holds, op_shape_swap; try (apply O1 || apply O2; assumption); try (unfold nonempty in *; tauto).
      rewrite Ey. cbn [bind]. eexists. split; [reflexivity|]. eapply delivered_ext; [apply delivered_transposed; [exact (output_shape _ _ _ _ HC)|exact Dy]|].
      intros i j Hi Hj. cbn beta. unfold Spec_BlasApi.combined, Spec_Blas.product. f_equal. f_equal. apply sum_over_ext. intros l Hl. etransitivity; [|apply MC]. f_equal; (etransitivity; [apply op_of_transposed|auto]).
    - destruct (gemm_internal_ok wa wb c alpha beta ta' tb' m1 n1 W1 m2 n2 W2 m n k C) as (y & Ey & Dy); auto. exists y. split; auto. eapply delivered_ext; [exact Dy|].
      intros i j Hi Hj. cbn beta. unfold Spec_BlasApi.combined, Spec_Blas.product. f_equal. f_equal. apply sum_over_ext. intros l Hl. f_equal; auto. Qed.
  Lemma gemm_internal_shape a b c alpha beta ta tb ma na mb nb : f_prefer (t_layout a) = true -> l_shape (t_layout a) = [ma; na] -> good (t_layout a) -> nonempty ma na -> f_prefer (t_layout b) = true -> l_shape (t_layout b) = [mb; nb] -> good (t_layout b) -> nonempty mb nb ->
    ta = ConjOnly \/ tb = ConjOnly \/ snd (op_shape ta ma na) <> fst (op_shape tb mb nb) \/ match c with Some c => exists x y, l_shape (t_layout c) = [x; y] /\ (x, y) <> (fst (op_shape ta ma na), snd (op_shape tb mb nb)) | None => False end ->
    exists e, gemm_internal zero add mul conj dev dflt a b c alpha beta ta tb = Err e.
  Proof. intros Pa Ea Ga NA Pb Eb Gb NB X. destruct (prefers_ld ColMajor _ ma na Ga Ea (proj1 NA) (proj2 NA) Pa) as (lda & La & _). destruct (prefers_ld ColMajor _ mb nb Gb Eb (proj1 NB) (proj2 NB) Pb) as (ldb & Lb & _). cbn [ld] in La, Lb.
    unfold gemm_internal. cbv zeta. rewrite Pa, Pb, La, Lb. unfold extent. rewrite Ea, Eb. cbn [check bind nth unwrap_opt]. unfold product_output, extent.
    destruct ta, tb; cbn [bind op_shape fst snd] in *; try (eexists; reflexivity); (destruct X as [X|[X|[X|X]]]; try discriminate;
      [match goal with |- context [check (?p =? ?q)%nat _] => replace (p =? q)%nat with false by lia end; cbn [check bind]; eexists; reflexivity|];
      destruct c as [c|]; [|contradiction]; destruct X as (x & y & Ec & X); rewrite Ec; cbn [nth];
      match goal with |- context [check (?p =? ?q)%nat _] => destruct (p =? q)%nat eqn:Z1 end; cbn [check bind]; [|eexists; reflexivity];
      match goal with |- context [check (x =? ?q)%nat _] => destruct (x =? q)%nat eqn:Z2 end; cbn [check bind]; [|eexists; reflexivity];
      match goal with |- context [check (y =? ?q)%nat _] => destruct (y =? q)%nat eqn:Z3 end; cbn [check bind]; [|eexists; reflexivity];
      exfalso; apply X; apply Nat.eqb_eq in Z2, Z3; congruence). Qed.
  Lemma gemm_err (a b : tensor T) c alpha beta ta tb o ma na A mb nb B : tensor_ok a -> holds (t_data a) (t_layout a) ma na A -> nonempty ma na -> tensor_ok b -> holds (t_data b) (t_layout b) mb nb B -> nonempty mb nb ->
    match c with Some c => tensor_ok c | None => True end ->
    ta = ConjOnly \/ tb = ConjOnly \/ snd (op_shape ta ma na) <> fst (op_shape tb mb nb) \/ match c with Some c => exists x y, l_shape (t_layout c) = [x; y] /\ (x, y) <> (fst (op_shape ta ma na), snd (op_shape tb mb nb)) | None => False end ->
    exists e, gemm zero add mul conj dev dflt a b c alpha beta ta tb o = Err e.
  Proof. intros Ha HA NA Hb HB NB HC X. unfold gemm. set (out := get_output_order _ _ _). cbv zeta.
    assert (FT : forall t (v : tensor T) m n V, tensor_ok v -> nonempty m n -> holds (t_data v) (t_layout v) m n V -> (exists e, flip_trans conj dev dflt out t v false = Err e) /\ t = ConjOnly \/
      exists t' w m' n' W, flip_trans conj dev dflt out t v false = Ok (t', w) /\ tensor_ok w /\ prefers out (t_layout w) = true /\ holds (t_data w) (t_layout w) m' n' W /\ nonempty m' n' /\ op_shape t' m' n' = op_shape t m n /\ (t' = ConjOnly <-> t = ConjOnly)).
    { intros t v m n V Hv NE HV. assert (D : t = ConjOnly \/ t <> ConjOnly) by (destruct t; auto; right; discriminate). destruct D as [D|D].
      - subst t. unfold flip_trans. destruct (prefers out (t_layout v)) eqn:P; [right|left; split; eauto]. exists ConjOnly, v, m, n, V. repeat (split; auto).
      - right. destruct (flip_trans_ok dev dflt conj out t v m n V Hv NE HV D) as (t' & w & m' & n' & W & F & T1 & P1 & H1 & N1 & NE1 & S1 & _). exists t', w, m', n', W. split; auto. split; auto. split; auto. split; auto. split; auto. split; auto. tauto. }
    destruct (FT ta a ma na A Ha NA HA) as [[(e & F1) _]|(ta' & wa & m1 & n1 & W1 & F1 & T1 & P1 & H1 & NE1 & S1 & Q1)]; rewrite F1; cbn [bind]; [eauto|].
    destruct (FT tb b mb nb B Hb NB HB) as [[(e & F2) _]|(tb' & wb & m2 & n2 & W2 & F2 & T2 & P2 & H2 & NE2 & S2 & Q2)]; rewrite F2; cbn [bind fst snd]; [eauto|].
    rewrite <- S1, <- S2, <- Q1, <- Q2 in X. clear Q1 Q2 S1 S2 F1 F2 FT. destruct out.
    - pose proof (transposed_prefers wa m1 n1 ColMajor T1 (holds_shape _ _ _ _ _ H1)) as X1. pose proof (transposed_prefers wb m2 n2 ColMajor T2 (holds_shape _ _ _ _ _ H2)) as X2. cbn [prefers] in *. rewrite P1 in X1. rewrite P2 in X2.
      destruct (op_shape ta' m1 n1) as [m k] eqn:S1. destruct (op_shape tb' m2 n2) as [k' n] eqn:S2. cbn [fst snd] in X.
      destruct (gemm_internal_shape (transposed wb) (transposed wa) (option_map transposed c) alpha beta tb' ta' n2 m2 n1 m1) as (e & ->); cbn [bind]; eauto using (holds_shape (T := T)), transposed_holds; try (unfold nonempty in *; tauto).
      { pose proof (transposed_ok _ T2) as Y. apply tensor_ok_good in Y. apply Y. } { pose proof (transposed_ok _ T1) as Y. apply tensor_ok_good in Y. apply Y. }
      rewrite (op_shape_swap _ _ _ _ _ S1), (op_shape_swap _ _ _ _ _ S2). cbn [fst snd]. destruct X as [X|[X|[X|X]]]; auto. right. right. right. destruct c as [c|]; [|contradiction]. cbn [option_map]. destruct X as (x & y & Ec & X). exists y, x. split; [|congruence].
      cbn [transposed t_layout reverse_axes l_shape]. now rewrite Ec.
    - eapply (gemm_internal_shape wa wb c alpha beta ta' tb' m1 n1 m2 n2); eauto using (holds_shape (T := T)); apply tensor_ok_good; auto. Qed.
End Products.
