(** The symmetric product and the triangular solve. *)
From Verif Require Import Base Spec Spec_Matmul Spec_Tri Spec_Blas P_Index P_List M_Layout P_Layout P_Bounds P_Contig P_Strides M_Indexer P_Indexer M_Broadcast P_Broadcast M_Rearr P_Rearr P_BinOp M_Iter P_Iter M_Kernel P_Kernel Q_Kernel M_Tensor P_Tensor Q_Tensor Q_Copy P_Arg P_Axes M_Matmul P_Matmul P_Matmul2 P_Matmul3 P_Matmul4 Q_Matmul M_Tri P_Tri P_Tri2 P_Tri3 P_Tri4 Q_Tri M_Fast P_Fast P_Fast2 P_Fast3 P_Creation M_Blas Spec_BlasApi P_Blas P_Blas2.
Local Open Scope Z_scope.

Lemma in_triangle_flip u i j : in_triangle (flip_uplo u) i j = in_triangle u j i.
Proof. destruct u; reflexivity. Qed.
Lemma flip_uplo_twice u : flip_uplo (flip_uplo u) = u. Proof. now destruct u. Qed.
Lemma same_shape_refl s : same_shape s s = true.
Proof. unfold same_shape. destruct (list_eq_dec _ _ _); congruence. Qed.

Section Sym.
  Context {T : Type} (zero one : T) (add mul : T -> T -> T) (conj re : T -> T) (dev dflt : order).
  Notation symmetric_from := (symmetric_from conj re).
  Notation product := (product zero add mul).
  Notation combined := (combined add mul).
  Notation side_product := (side_product zero add mul).
  Lemma lib_sym_rows hermi u n A i j : (i < n)%nat -> (j < n)%nat -> lib_sym zero conj re hermi u (rows n n (triangular zero one u false A)) i j = symmetric_from hermi u A i j.
  Proof. intros Hi Hj. unfold lib_sym, Spec_Blas.symmetric_from. rewrite !entry_rows by auto. unfold triangular. cbn [andb]. destruct (Nat.eqb_spec i j) as [->|N].
    - replace (in_triangle u j j) with true by (destruct u; cbn; lia). reflexivity.
    - destruct (in_triangle u i j) eqn:E; auto. replace (in_triangle u j i) with true by (destruct u; cbn in *; lia). reflexivity. Qed.
  Lemma syhemm_internal_ok hermi a b c alpha beta s u A B m n k C : tensor_ok a -> f_prefer (t_layout a) = true -> l_offset (t_layout a) = 0 -> holds (t_data a) (t_layout a) k k A ->
    tensor_ok b -> f_prefer (t_layout b) = true -> l_offset (t_layout b) = 0 -> holds (t_data b) (t_layout b) m n B -> nonempty m n ->
    k = n -> (s = SLeft -> m = n) -> output_ok c zero m n C ->
    exists y, syhemm_internal zero one add mul conj re dev dflt hermi a b c alpha beta s u = Ok y /\ delivered c y m n (combined alpha beta (side_product s m n (symmetric_from hermi u A) B) C).
  Proof. intros Ha Pa Oa HA Hb Pb Ob HB NB Ek Em HC. subst k.
    pose proof (holds_shape _ _ _ _ _ HA) as Ea. pose proof (holds_shape _ _ _ _ _ HB) as Eb. pose proof NB as [N1 N2].
    apply tensor_ok_good in Ha as (Ga & _). apply tensor_ok_good in Hb as (Gb & _).
    destruct (prefers_ld ColMajor _ n n Ga Ea N2 N2 Pa) as (lda & La & Wa). destruct (prefers_ld ColMajor _ m n Gb Eb N1 N2 Pb) as (ldb & Lb & Wb). rewrite Oa in Wa. rewrite Ob in Wb. cbn [ld] in La, Lb.
    destruct (product_output_ok zero dev dflt c m n C NB HC) as (x & Ex & Tx & Wx & Hx & Cx).
    unfold syhemm_internal. cbv zeta. rewrite Pa, Pb, La, Lb. unfold extent. rewrite Ea, Eb. cbn [check bind nth unwrap_opt].
    pose proof (located_read_tri zero one _ _ _ _ _ u false _ Wa HA) as RA. pose proof (located_read _ _ _ _ _ _ _ Wb HB) as RB. pose proof Wa as (_ & AA & _). pose proof Wb as (_ & AB & _). pose proof Wx as (_ & AX & _). cbn [rows_of] in AA, AB, AX.
    apply tensor_ok_good in Tx as (Gx & Ix). set (R := rows n n (triangular zero one u false A)) in *.
    set (new := fun i j z => add (mul alpha (match s with SLeft => lib_sum zero add m (fun l => mul (lib_sym zero conj re hermi u R i l) (entry_at zero (rows m n B) l j)) | SRight => lib_sum zero add n (fun l => mul (entry_at zero (rows m n B) i l) (lib_sym zero conj re hermi u R l j)) end)) (mul beta z)).
    destruct (located_write _ _ _ _ _ _ C new Wx Ix Hx) as (d' & Ed & Ud & Hd).
    assert (F : driver_syhemm zero one add mul conj re hermi s u m n alpha (t_data a) lda (t_data b) ldb beta (t_data (mview x)) (Z.of_nat m) = Ok d').
    { unfold driver_syhemm. destruct s; [specialize (Em eq_refl); subst m|]; cbv zeta; rewrite AA, AB, AX, RA, RB; cbn [andb bind]; exact Ed. }
    destruct (Cx d' (combined alpha beta (side_product s m n (symmetric_from hermi u A) B) C) Ud) as (y & Ey & Dy).
    { eapply holds_ext; [exact Hd|]. intros i j Hi Hj. unfold new, Spec_BlasApi.combined, Spec_BlasApi.side_product, Spec_Blas.product. f_equal. f_equal. destruct s; [specialize (Em eq_refl); subst m|]; (apply lib_sum_ext; intros l Hl; f_equal; (apply entry_rows || apply lib_sym_rows); auto). }
    exists y. split; auto. destruct s; [specialize (Em eq_refl); subst m|]; rewrite same_shape_refl; cbn [check bind]; rewrite Ex; cbn [bind]; rewrite F; cbn [bind]; exact Ey. Qed.
  Lemma symmetric_transposed hermi u A i j : symmetric_from hermi (flip_uplo u) (fun i j => A j i) i j = symmetric_from hermi u A j i.
  Proof. unfold Spec_Blas.symmetric_from. rewrite in_triangle_flip. destruct (Nat.eqb_spec i j) as [->|N]; [now rewrite Nat.eqb_refl|]. replace (j =? i)%nat with false by lia. reflexivity. Qed.
  Lemma symmetric_either u A n i j : (forall i j, (i < n)%nat -> (j < n)%nat -> A i j = A j i) -> (i < n)%nat -> (j < n)%nat -> symmetric_from false (flip_uplo u) A i j = symmetric_from false u A i j.
  Proof. intros H Hi Hj. unfold Spec_Blas.symmetric_from. rewrite in_triangle_flip. destruct (Nat.eqb_spec i j) as [->|N]; auto. rewrite (H j i) by auto. now destruct (in_triangle u j i), (in_triangle u i j). Qed.
  Lemma syhemm_ok hermi (a b : tensor T) c alpha beta s u o A B m n C : let k := match s with SLeft => m | SRight => n end in (forall x y, mul x y = mul y x) ->
    tensor_ok a -> holds (t_data a) (t_layout a) k k A -> tensor_ok b -> holds (t_data b) (t_layout b) m n B -> nonempty m n ->
    let out := get_output_order [option_map order_arg o; option_map (fun c => order_of (t_layout c)) c] [] dev in
    (m = n \/ match out, s with RowMajor, SLeft | ColMajor, SRight => True | _, _ => False end) ->
    (hermi = true \/ prefers out (t_layout a) = true \/ forall i j, (i < k)%nat -> (j < k)%nat -> A i j = A j i) -> output_ok c zero m n C ->
    exists y, syhemm zero one add mul conj re dev dflt hermi a b c alpha beta s u o = Ok y /\ delivered c y m n (combined alpha beta (side_product s m n (symmetric_from hermi u A) B) C).
  Proof. intros k MC Ha HA Hb HB NB out SQ SY HC. unfold syhemm. fold out. cbv zeta.
    assert (NK : nonempty k k) by (unfold k, nonempty in *; destruct s; tauto).
    destruct (contig_copy dev a k k A out Ha NK HA) as (ca & -> & Ta & Pa & Hca). destruct (contig_copy dev b m n B out Hb NB HB) as (cb & -> & Tb & Pb & Hcb). cbn [bind].
    set (u' := if negb hermi && negb (prefers out (t_layout a)) then flip_uplo u else u).
    assert (SU : forall i j, (i < k)%nat -> (j < k)%nat -> symmetric_from hermi u' A i j = symmetric_from hermi u A i j).
    { intros i j Hi Hj. unfold u'. destruct hermi; auto. cbn [negb andb]. destruct (prefers out (t_layout a)); auto. cbn [negb]. destruct SY as [SY|[SY|SY]]; try discriminate. eapply symmetric_either; eauto. }
    clearbody u'. clear SY. destruct Pa as (Oa & Pa & _). destruct Pb as (Ob & Pb & _). destruct out.
    - pose proof (output_transposed zero c m n C HC) as HC'. pose proof (transposed_prefers ca k k ColMajor Ta (holds_shape _ _ _ _ _ Hca)) as X1. pose proof (transposed_prefers cb m n ColMajor Tb (holds_shape _ _ _ _ _ Hcb)) as X2. cbn [prefers] in *. rewrite Pa in X1. rewrite Pb in X2.
      destruct (syhemm_internal_ok hermi (transposed ca) (transposed cb) (option_map transposed c) alpha beta (flip_side s) (flip_uplo u') (fun i j => A j i) (fun i j => B j i) n m k (fun i j => C j i)) as (y & Ey & Dy);
        auto using transposed_ok, transposed_holds; try (unfold nonempty in *; tauto). { unfold k in *. destruct s, SQ; congruence || contradiction. } { destruct s, SQ; cbn; congruence || contradiction. }
      rewrite Ey. cbn [bind]. eexists. split; [reflexivity|]. eapply delivered_ext; [apply delivered_transposed; [exact (output_shape zero _ _ _ _ HC)|exact Dy]|].
      intros i j Hi Hj. cbn beta. unfold Spec_BlasApi.combined, Spec_BlasApi.side_product, Spec_Blas.product, k in *. f_equal. f_equal. destruct s; cbn [flip_side]; apply sum_over_ext; intros l Hl; (etransitivity; [|apply MC]); f_equal; (etransitivity; [apply symmetric_transposed|]); auto.
    - destruct (syhemm_internal_ok hermi ca cb c alpha beta s u' A B m n k C) as (y & Ey & Dy); auto. { unfold k in *. destruct s, SQ; congruence || contradiction. } { destruct s, SQ; congruence || contradiction. }
      exists y. split; auto. eapply delivered_ext; [exact Dy|]. intros i j Hi Hj. unfold Spec_BlasApi.combined, Spec_BlasApi.side_product, Spec_Blas.product, k in *. f_equal. f_equal. destruct s; apply sum_over_ext; intros l Hl; f_equal; auto. Qed.
End Sym.

(** ** the triangular solve *)
Section Tri.
  Context {T : Type} (zero one : T) (add mul : T -> T -> T) (conj : T -> T) (dev dflt : order).
  Context (trsm_lib : side -> ftrans -> nat -> nat -> T -> list (list T) -> list (list T) -> nat -> nat -> T).
  Notation op_of := (op_of conj).
  Notation triangular := (triangular zero one).
  Notation solves := (solves zero add mul).
  Notation library_solves := (library_solves zero add mul conj trsm_lib).
  Lemma convert_col (r : reference T) m n B : nonempty m n -> operand_ok r m n B -> exists x, overwritable_convert_with_order dev dflt r ColMajor = Ok x /\ tensor_ok (mview x) /\
    located ColMajor (t_layout (mview x)) m n 0 (Z.of_nat m) /\ holds (t_data (mview x)) (t_layout (mview x)) m n B /\ commits dev x (target_of r) m n.
  Proof. intros NE (Ht & H & F). destruct r as [t|t]; cbn [ref_of overwritable_convert_with_order target_of] in *; destruct (contig_owned_ok dev dflt t m n B ColMajor Ht NE H) as (b & Eb & Tb & Pb & Hb).
    - rewrite Eb. cbn [bind]. exists (Owned b). split; auto. cbn [mview]. split; auto. split; [apply Pb|]. split; auto. now apply commits_owned.
    - pose proof (holds_shape _ _ _ _ _ H) as E. pose proof Ht as G. apply tensor_ok_good in G as (G & _). destruct F as (NZ & F). cbn [prefers]. destruct (f_prefer (t_layout t)) eqn:P.
      + exists (MutRef t). split; auto. cbn [mview]. split; auto. split; [destruct F as [F|[_ F]]; [|congruence]; apply compact_col; auto; apply G|]. split; auto. apply commits_mut.
      + rewrite Eb. cbn [bind]. exists (ToBeCloned t b). split; auto. cbn [mview]. split; auto. split; [apply Pb|]. split; auto. now apply commits_clone. Qed.
  Lemma trsm_internal_ok a r alpha s u t unit A B m n k : tensor_ok a -> f_prefer (t_layout a) = true -> l_offset (t_layout a) = 0 -> holds (t_data a) (t_layout a) k k A -> k = side_extent s m n ->
    operand_ok r m n B -> nonempty m n -> t <> ConjOnly ->
    exists y, trsm_internal zero one dev dflt trsm_lib a r alpha s u t unit = Ok y /\ delivered (target_of r) y m n (trsm_lib s t m n alpha (rows k k (triangular u unit A)) (rows m n B)).
  Proof. intros Ha Pa Oa HA Ek HB NB Nt. pose proof (holds_shape _ _ _ _ _ HA) as Ea. pose proof HB as (_ & HB' & _). pose proof (holds_shape _ _ _ _ _ HB') as Eb. clear HB'.
    apply tensor_ok_good in Ha as (Ga & _). assert (NK : k <> 0%nat) by (subst k; destruct NB, s; auto).
    destruct (prefers_ld ColMajor _ k k Ga Ea NK NK Pa) as (lda & La & Wa). rewrite Oa in Wa.
    destruct (convert_col r m n B NB HB) as (x & Ex & Tx & Wx & Hx & Cx). apply tensor_ok_good in Tx as (Gx & Ix).
    unfold trsm_internal. cbv zeta. rewrite Pa, La. unfold extent. rewrite Ea, Eb. cbn [check bind nth unwrap_opt].
    pose proof (located_read_tri zero one _ _ _ _ _ u unit _ Wa HA) as RA. pose proof (located_read _ _ _ _ _ _ _ Wx Hx) as RB. pose proof Wa as (_ & AA & _). pose proof Wx as (_ & AX & _). cbn [rows_of] in AA, AX.
    destruct (located_write _ _ _ _ _ _ B (fun i j _ => trsm_lib s t m n alpha (rows k k (triangular u unit A)) (rows m n B) i j) Wx Ix Hx) as (d' & Ed & Ud & Hd).
    destruct (Cx d' _ Ud Hd) as (y & Ey & Dy). exists y. split; auto.
    assert (F : driver_trsm zero one trsm_lib s u t unit m n alpha (t_data a) lda (t_data (mview x)) (Z.of_nat m) = Ok d').
    { unfold driver_trsm. cbv zeta. fold (side_extent s m n). rewrite <- Ek, AA, AX, RA, RB. cbn [andb bind]. destruct t; auto. contradiction. }
    subst k. destruct s; cbn [side_extent] in *; rewrite same_shape_refl; cbn [check bind]; rewrite Ex; cbn [bind]; rewrite F; cbn [bind]; exact Ey. Qed.

  Lemma triangular_transposed u unit A i j : triangular (flip_uplo u) unit (fun i j => A j i) i j = triangular u unit A j i.
  Proof. unfold Spec_Blas.triangular. rewrite in_triangle_flip. now rewrite (Nat.eqb_sym i j). Qed.
  Lemma operand_transposed (r : reference T) m n B : operand_ok r m n B -> operand_ok (rtransposed r) n m (fun i j => B j i).
  Proof. intros (H1 & H2 & H3). destruct r as [t|t]; cbn [rtransposed ref_of] in *.
    - split; [now apply transposed_ok|]. split; [now apply transposed_holds|exact I].
    - destruct (output_transposed zero (Some t) m n B) as (X1 & X2 & X3); [now split|]. split; auto. Qed.
  Lemma target_transposed (r : reference T) : target_of (rtransposed r) = option_map transposed (target_of r).
  Proof. now destruct r. Qed.
  Lemma trsm_ok (a : tensor T) r alpha s u t unit o A B m n : let k := side_extent s m n in let M := op_of t (triangular (default_uplo dev u) unit A) in
    (forall x y, mul x y = mul y x) -> conj zero = zero -> conj one = one -> library_solves k M ->
    tensor_ok a -> at_start (t_layout a) -> holds (t_data a) (t_layout a) k k A -> operand_ok r m n B -> nonempty m n -> t <> ConjOnly ->
    exists y X, trsm zero one conj dev dflt trsm_lib a r alpha s u t unit o = Ok y /\ delivered (target_of r) y m n X /\ solves s m n M X (fun i j => mul alpha (B i j)).
  Proof. intros k M MC C0 C1 LS Ha Sa HA HB NB Nt. unfold trsm. set (out := get_output_order _ _ _). cbv zeta. unfold M in *. clear M. set (u0 := default_uplo dev u) in *. clearbody u0. assert (NK : nonempty k k) by (unfold k, side_extent, nonempty in *; destruct s; tauto).
    destruct (flip_trans_ok dev dflt conj out t a k k A Ha NK HA Nt) as (t' & w & m1 & n1 & W & -> & T1 & P1 & H1 & N1 & NE1 & S1 & Q1 & O1 & Z1). cbn [bind fst snd]. set (u' := if negb (ftrans_eqb t' t) then flip_uplo u0 else u0).
    assert (Em : m1 = k /\ n1 = k) by (destruct Z1 as [(_ & ? & ? & _)|(_ & ? & ? & _)]; auto). destruct Em as [-> ->].
    assert (MU : forall i j, op_of t' (triangular u' unit W) i j = op_of t (triangular u0 unit A) i j).
    { intros i j. unfold u'. destruct Z1 as [(-> & _ & _ & ->)|(D & _ & _ & D2)]. { replace (ftrans_eqb t t) with true by now destruct t. reflexivity. }
      replace (ftrans_eqb t' t) with false by (destruct t, t'; congruence || reflexivity). cbn [negb]. specialize (Q1 i j). clear - C0 C1 D D2 Q1 Nt N1. unfold Spec_Blas.triangular.
      destruct t, t'; try congruence; try (exfalso; destruct D2 as [D2 D3]; (now apply D2) || (discriminate D3; discriminate) || fail); cbn [Spec_Blas.op_of] in *; rewrite ?in_triangle_flip, ?(Nat.eqb_sym j i); destruct (unit && (i =? j)%nat); auto; destruct (in_triangle u0 _ _); auto; try (now rewrite ?C0, ?C1). all: try (exfalso; destruct D2 as [D2 D3]; assert (X : Trans = NoTrans) by (apply D3; discriminate); discriminate X). }
    clearbody u'. clear Z1. destruct out.
    - pose proof (operand_transposed r m n B HB) as HB'. pose proof (transposed_prefers w k k ColMajor T1 (holds_shape _ _ _ _ _ H1)) as X1. cbn [prefers] in *. rewrite P1 in X1.
      destruct (trsm_internal_ok (transposed w) (rtransposed r) alpha (flip_side s) (flip_uplo u') t' unit (fun i j => W j i) (fun i j => B j i) n m k) as (y & Ey & Dy); auto using transposed_ok, transposed_holds; try (unfold nonempty in *; tauto). { unfold k. now destruct s. }
      rewrite Ey. cbn [bind]. rewrite target_transposed in Dy. eexists _, _. split; [reflexivity|]. split.
      { apply delivered_transposed; [|exact Dy]. destruct HB as (Y1 & Y2 & _). apply holds_shape in Y2. destruct r; cbn [target_of ref_of] in *; auto. }
      set (R := triangular (flip_uplo u') unit (fun i j => W j i)).
      assert (MR : forall i j, op_of t' R i j = op_of t (triangular u0 unit A) j i). { intros i j. rewrite <- MU. unfold R. destruct t'; cbn [Spec_Blas.op_of]; now rewrite triangular_transposed. }
      pose proof (LS (flip_side s) t' n m alpha R (fun i j => B j i)) as L. fold R in L. specialize (L ltac:(unfold k; now destruct s) N1 (or_intror (fun i j _ _ => MR i j))). intros i j Hi Hj. specialize (L j i Hj Hi). cbn beta in L. rewrite <- L. unfold Spec_Blas.product, k in *.
      destruct s; cbn [flip_side side_extent] in *; apply sum_over_ext; intros l Hl; rewrite MR; apply MC.
    - destruct (trsm_internal_ok w r alpha s u' t' unit W B m n k) as (y & Ey & Dy); auto. eexists y, _. split; auto. split; [exact Dy|].
      pose proof (LS s t' m n alpha (triangular u' unit W) B eq_refl N1 (or_introl (fun i j _ _ => MU i j))) as L. intros i j Hi Hj. specialize (L i j Hi Hj). cbn beta in L. rewrite <- L. unfold Spec_Blas.product. destruct s; apply sum_over_ext; intros l Hl; now rewrite MU. Qed.
End Tri.
