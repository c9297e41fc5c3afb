From Verif Require Import Base Spec Spec_Matmul P_Index P_List M_Layout P_Layout P_Bounds P_Contig P_Strides M_Indexer P_Indexer M_Broadcast P_Broadcast Q_Broadcast M_Rearr P_Rearr P_BinOp M_Iter P_Iter M_Kernel P_Kernel Q_Rearr Q_Kernel M_Tensor P_Tensor Q_Tensor Q_Copy M_Matmul P_Matmul P_Matmul2 P_Matmul3 P_Matmul4 P_Tri3 Q_Matmul M_Fast P_Fast P_Fast2.
Local Open Scope Z_scope.

Lemma valid2 M N ix : valid [M; N] ix -> exists m n, ix = [m; n] /\ (m < M)%nat /\ (n < N)%nat.
Proof. intro V. apply valid_cons_inv in V as (m & r & -> & Hm & V). apply valid_cons_inv in V as (n & r' & -> & Hn & V). apply valid_nil in V as ->. eauto. Qed.
Section Blas.
  Context {T : Type} (zero : T) (add mul : T -> T -> T) (eqb : T -> T -> bool) (SR : comm_semiring zero add mul) (EQ : forall x y, eqb x y = true <-> x = y).
  Notation filled := (filled add mul).
  Notation entry := (entry zero add mul).
  Notation at0 := (at0 zero).

  (** ** the factors *)
  Lemma blas_factor_ok a la m k : good la -> l_shape la = [m; k] -> m <> 0%nat -> k <> 0%nat -> inside la (length a) ->
    exists ta (d : list T) l', blas_factor a la = Ok (ta, d, l') /\ at_least (leading l') (if ta then k else m) = true /\
      forall i j, (i < m)%nat -> (j < k)%nat -> 0 <= col_pos ta (l_offset l') (leading l') i j < Z.of_nat (length d) /\ peek d (col_pos ta (l_offset l') (leading l') i j) = peek a (addr la [i; j]).
  Proof. intros G Sh Hm Hk I. destruct (layout2 la m k (good_wf _ G) Sh) as (s & t & EL). unfold blas_factor. destruct (f_prefer la) eqn:F.
    - exists false, a, la. split; auto. rewrite EL in *. cbn [l_offset] in *. split; [now apply leading_ok|]. intros i j Hi Hj. rewrite leading_pos by auto. split; auto. apply I. now apply valid_tuple2.
    - clear F. destruct (c_prefer la) eqn:F.
      + exists true, a, (reverse_axes la). split; auto. pose proof (good_reverse _ G) as GR. rewrite EL in *. rewrite c_prefer2 in F. rewrite reverse2 in *. split; [now apply leading_ok|]. intros i j Hi Hj. pose proof (leading_pos k m t s (l_offset la) j i F Hj Hi) as X.
        change (col_pos true (l_offset (mkLayout [k; m] [t; s] (l_offset la))) (leading (mkLayout [k; m] [t; s] (l_offset la))) i j) with (col_pos false (l_offset la) (leading (mkLayout [k; m] [t; s] (l_offset la))) j i).
        rewrite X. replace (addr (mkLayout [k; m] [t; s] (l_offset la)) [j; i]) with (addr (mkLayout [m; k] [s; t] (l_offset la)) [i; j]) by (rewrite !addr2; lia). split; auto. apply I. now apply valid_tuple2.
      + clear F. set (l := new_f_contig Fixed (l_shape la) 0). destruct (contig_facts Fixed (l_shape la) ColMajor) as (Gl & Jl & Cl & Sl & Ol). change (new_contig Fixed (l_shape la) 0 ColMajor) with l in *. unfold l_size.
        assert (LR : length (repeat (@None T) (size (l_shape la))) = size (l_shape la)) by apply repeat_length. unfold assign. destruct (op2_kernel Fixed (repeat None (size (l_shape la))) l a la (fun _ y => Some y) (l_shape la)) as (c' & -> & [L' U'] & V'); auto. { rewrite LR. now apply covers_inside. }
        cbn [bind]. destruct (fresh_result l c' (fun ix v => elem a la ix = Some v)) as (d & E & _ & Ld & Id & Hd); auto. { rewrite L', LR. auto. } { intros ix V. destruct (V' ix V) as (x & y & _ & Hy & H). eauto. }
        rewrite E. cbn [bind]. exists false, d, l. split; auto.
        assert (FP : f_prefer l = true) by (unfold l; rewrite Sh; now apply f_contig_prefer). assert (EL2 : l = mkLayout [m; k] [1; Z.of_nat (Nat.max m 1)] 0) by (unfold l; rewrite Sh; apply f_contig2). rewrite EL2 in *. cbn [l_shape] in *. split; [now apply leading_ok|].
        intros i j Hi Hj. cbn [l_offset]. rewrite leading_pos by auto. assert (V : valid [m; k] [i; j]) by now apply valid_tuple2. split; [now apply Id|]. destruct (Hd _ V) as (v & Hv & Hv'). unfold elem in *. congruence. Qed.

  (** ** the general product *)
  Lemma fill_zero M N lc c W alpha : good lc -> l_shape lc = [M; N] -> inside lc (length c) -> (forall m n, W m n = zero) -> exists c', fill Fixed (fun x : T => x) c lc zero = Ok c' /\ filled M N lc W alpha zero c c'.
  Proof. intros G Sh I HW. unfold fill. destruct (op1_kernel Fixed (S contig_switch) c lc (fun _ => zero)) as (c' & -> & [L U] & V); auto. { lia. } { apply G. } { apply G. } { now apply accepted_distinct. }
    exists c'. split; auto. split; auto. split.
    - intros m n Hm Hn. destruct (V [m; n]) as (z & Hz & H). { rewrite Sh. now apply valid_tuple2. } exists z. split; auto. unfold elem in H. rewrite H, HW, (mul_zero zero add mul SR), (add_zero_r zero add mul SR), (mul_comm zero add mul SR), (mul_zero zero add mul SR). reflexivity.
    - intros p Hp. apply U. intros ix Vx. rewrite Sh in Vx. apply valid2 in Vx as (m & n & -> & Hm & Hn). auto. Qed.
  Lemma unchanged M N lc W alpha beta (c : list T) : M = 0%nat \/ N = 0%nat -> filled M N lc W alpha beta c c.
  Proof. intro H. split; auto. split; auto. intros m n Hm Hn. lia. Qed.
  Lemma col_writes M N lc : good lc -> l_shape lc = [M; N] -> M <> 0%nat -> N <> 0%nat -> f_prefer lc = true -> at_least (leading lc) M = true /\ forall i j, (i < M)%nat -> (j < N)%nat -> col_pos false (l_offset lc) (leading lc) i j = addr lc [i; j].
  Proof. intros G Sh HM HN F. destruct (layout2 lc M N (good_wf _ G) Sh) as (s & t & EL). rewrite EL in *. cbn [l_offset]. split; [now apply leading_ok|]. intros. now apply leading_pos. Qed.
  Lemma gemm_col_filled M K N c lc a la b lb alpha beta : good la -> good lb -> good lc -> l_shape la = [M; K] -> l_shape lb = [K; N] -> l_shape lc = [M; N] -> inside la (length a) -> inside lb (length b) -> inside lc (length c) -> injective lc ->
    f_prefer lc = true -> beta = zero \/ K <> 0%nat -> exists c', gemm_blas_col zero add mul eqb c lc a la b lb alpha beta = Ok c' /\ filled M N lc (entry a la b lb K) alpha beta c c'.
  Proof. intros Ga Gb Gc Sa Sb Sc Ia Ib Ic Jc F HB. unfold gemm_blas_col, extent. rewrite Sa, Sb, Sc. cbn [nth]. rewrite !Nat.eqb_refl. cbn [check bind].
    destruct (Nat.eqb_spec K 0) as [->|HK]. { destruct HB as [->|HB]; [|congruence]. apply fill_zero; auto. }
    destruct (Nat.eqb_spec N 0) as [->|HN]; cbn [orb]. { exists c. split; auto. apply unchanged; auto. } destruct (Nat.eqb_spec M 0) as [->|HM]. { exists c. split; auto. apply unchanged; auto. }
    destruct (blas_factor_ok a la M K Ga Sa HM HK Ia) as (ta & da & la' & -> & LA & PA). destruct (blas_factor_ok b lb K N Gb Sb HK HN Ib) as (tb & db & lb' & -> & LB & PB). cbn [bind].
    destruct (col_writes M N lc Gc Sc HM HN F) as (LC & PC). unfold cblas_gemm. rewrite LA, LB, LC. cbn [andb]. apply (lib_filled zero add mul SR); auto.
    - intros i k Hi Hk. now apply PA. - intros k j Hk Hj. now apply PB.
    - intros z v. destruct (eqb beta zero) eqn:E; auto. apply EQ in E as ->. apply (none_renew zero add mul SR).
    - intros i j Hi Hj. unfold P_Fast.entry. f_equal. apply map_ext_in. intros k Hk. apply in_seq in Hk. unfold P_Fast.at0. destruct (PA i k) as (_ & ->); [auto|lia|]. destruct (PB k j) as (_ & ->); [lia|auto|]. reflexivity. Qed.
  (** a result computed in a new buffer *)
  Lemma buffer_filled M N lc W alpha beta (c : list T) d0 d : good lc -> l_shape lc = [M; N] -> inside lc (length c) -> injective lc -> length d0 = size [M; N] -> 
    filled M N (new_f_contig Fixed [M; N] 0) W alpha zero d0 d -> beta = zero -> exists c', assign Fixed (fun x => x) c lc d (new_f_contig Fixed [M; N] 0) = Ok c' /\ filled M N lc W alpha beta c c'.
  Proof. intros G Sh I J L0 (Ld & Vd & _) ->. destruct (contig_facts Fixed [M; N] ColMajor) as (Gl & Jl & Cl & Sl & Ol). change (new_contig Fixed [M; N] 0 ColMajor) with (new_f_contig Fixed [M; N] 0) in *.
    unfold assign. destruct (op2_kernel Fixed c lc d (new_f_contig Fixed [M; N] 0) (fun _ y => y) [M; N]) as (c' & -> & [L U] & V); auto. { rewrite Ld, L0. now apply covers_inside. }
    exists c'. split; auto. split; auto. split.
    - intros m n Hm Hn. destruct (V [m; n]) as (x & y & Hx & Hy & H). { rewrite Sh. now apply valid_tuple2. } exists x. split; auto. unfold elem in *. rewrite H. destruct (Vd m n Hm Hn) as (z & Hz & Hz'). rewrite Hz' in Hy. injection Hy as <-. rewrite (mul_comm zero add mul SR zero x), (mul_comm zero add mul SR zero z), !(mul_zero zero add mul SR). reflexivity.
    - intros p Hp. apply U. intros ix Vx. rewrite Sh in Vx. apply valid2 in Vx as (m & n & -> & Hm & Hn). auto. Qed.
  (** a buffer before it is used *)
  Lemma new_buffer s (c : list T) lc (z : bool) : good lc -> l_shape lc = s -> inside lc (length c) ->
    exists d, (let* d := if z then fill Fixed Some (repeat None (l_size (new_f_contig Fixed s 0))) (new_f_contig Fixed s 0) zero else assign Fixed Some (repeat None (l_size (new_f_contig Fixed s 0))) (new_f_contig Fixed s 0) c lc in assume_init d) = Ok d /\ length d = size s.
  Proof. intros G Sh I. destruct (contig_facts Fixed s ColMajor) as (Gl & Jl & Cl & Sl & Ol). change (new_contig Fixed s 0 ColMajor) with (new_f_contig Fixed s 0) in *. unfold l_size. rewrite Sl.
    assert (LR : length (repeat (@None T) (size s)) = size s) by apply repeat_length. assert (Il : inside (new_f_contig Fixed s 0) (length (repeat (@None T) (size s)))) by (rewrite LR; now apply covers_inside).
    assert (X : exists c', (if z then fill Fixed Some (repeat None (size s)) (new_f_contig Fixed s 0) zero else assign Fixed Some (repeat None (size s)) (new_f_contig Fixed s 0) c lc) = Ok c' /\ length c' = size s /\ forall ix, valid s ix -> exists v, elem c' (new_f_contig Fixed s 0) ix = Some (Some v)).
    { destruct z.
      - unfold fill. destruct (op1_kernel Fixed (S contig_switch) (repeat None (size s)) (new_f_contig Fixed s 0) (fun _ => Some zero)) as (c' & -> & [L U] & V); auto. { lia. } { apply Gl. } { apply Gl. } { now apply accepted_distinct. }
        exists c'. split; auto. split; [congruence|]. intros ix Vx. destruct (V ix) as (x & _ & H); eauto. all: try (now rewrite Sl).
      - unfold assign. destruct (op2_kernel Fixed (repeat None (size s)) (new_f_contig Fixed s 0) c lc (fun _ y => Some y) s) as (c' & -> & [L U] & V); auto.
        exists c'. split; auto. split; [congruence|]. intros ix Vx. destruct (V ix) as (x & y & _ & _ & H); eauto. all: try (now rewrite Sl). }
    destruct X as (c' & -> & L' & V'). cbn [bind]. destruct (fresh_result (new_f_contig Fixed s 0) c' (fun _ _ => True)) as (d & E & _ & Ld & _); auto. { now rewrite L'. } { intros ix V. rewrite Sl in V. destruct (V' ix V) as (v & H). eauto. } exists d. split; [auto|congruence]. Qed.
  Lemma gemm_blas_filled M K N c lc a la b lb alpha beta : good la -> good lb -> good lc -> l_shape la = [M; K] -> l_shape lb = [K; N] -> l_shape lc = [M; N] -> inside la (length a) -> inside lb (length b) -> inside lc (length c) -> injective lc ->
    beta = zero \/ ((f_prefer lc = true \/ c_prefer lc = true) /\ K <> 0%nat) -> exists c', gemm_blas zero add mul eqb 2 c lc a la b lb alpha beta = Ok c' /\ filled M N lc (entry a la b lb K) alpha beta c c'.
  Proof. intros Ga Gb Gc Sa Sb Sc Ia Ib Ic Jc HB. assert (HB' : beta = zero \/ K <> 0%nat) by tauto. cbn [gemm_blas]. destruct (f_prefer lc) eqn:F; [now apply gemm_col_filled|].
    destruct (layout2 lc M N (good_wf _ Gc) Sc) as (s & t & EL). destruct (c_prefer lc) eqn:F'.
    - assert (FR : f_prefer (reverse_axes lc) = true). { rewrite EL in F' |- *. now rewrite c_prefer2 in F'. } rewrite FR.
      destruct (gemm_col_filled N K M c (reverse_axes lc) b (reverse_axes lb) a (reverse_axes la) alpha beta) as (c' & -> & H); auto using good_reverse, rev_inside, rev_injective, good_wf; try (cbn [reverse_axes l_shape]; rewrite ?Sa, ?Sb, ?Sc; reflexivity).
      exists c'. split; auto. apply (filled_turn add mul M N lc (entry a la b lb K) (entry b (reverse_axes lb) a (reverse_axes la) K) alpha beta c c' s t (l_offset lc)); auto.
      intros m n _ _. apply (entry_turn zero add mul SR); auto using good_wf; unfold ndim; rewrite ?Sa, ?Sb; reflexivity.
    - destruct HB as [->|[[|] _]]; try discriminate. rewrite Sc. destruct (new_buffer [M; N] c lc (eqb zero zero) Gc Sc Ic) as (d0 & E0 & L0). destruct (if eqb zero zero then _ else _) as [d1| |]; try discriminate. cbn [bind] in E0 |- *. rewrite E0. cbn [bind].
      assert (NE : M <> 0%nat). { intro Z. rewrite EL, Z in F. unfold f_prefer, ndim, l_size in F. cbn [l_shape length Nat.eqb orb] in F. replace (size [0%nat; N]) with 0%nat in F by (unfold size; cbn; lia). discriminate F. }
      rewrite (f_contig_prefer M N NE). destruct (contig_facts Fixed [M; N] ColMajor) as (Gl & Jl & Cl & Sl & Ol). change (new_contig Fixed [M; N] 0 ColMajor) with (new_f_contig Fixed [M; N] 0) in *.
      destruct (gemm_col_filled M K N d0 (new_f_contig Fixed [M; N] 0) a la b lb alpha zero) as (d & -> & H); auto. { rewrite L0. now apply covers_inside. } { now apply f_contig_prefer. } cbn [bind]. now apply (buffer_filled M N lc _ alpha zero c d0 d). Qed.

  (** ** the symmetric product *)
  Lemma syrk_col_filled tri n K c lc a la alpha : (forall l, Permutation (tri l) l) -> good la -> good lc -> l_shape la = [n; K] -> l_shape lc = [n; n] -> inside la (length a) -> inside lc (length c) -> injective lc -> f_prefer lc = true ->
    exists c', syrk_blas_col zero add mul tri c lc a la alpha = Ok c' /\ filled n n lc (entry a la a (reverse_axes la) K) alpha zero c c'.
  Proof. intros PT Ga Gc Sa Sc Ia Ic Jc F. unfold syrk_blas_col, extent. rewrite Sa, Sc. cbn [nth]. rewrite !Nat.eqb_refl. cbn [check bind].
    destruct (Nat.eqb_spec K 0) as [->|HK]; [now apply fill_zero|]. destruct (Nat.eqb_spec n 0) as [->|Hn]. { exists c. split; auto. apply unchanged; auto. }
    destruct (blas_factor_ok a la n K Ga Sa Hn HK Ia) as (ta & da & la' & -> & LA & PA). cbn [bind]. destruct (col_writes n n lc Gc Sc Hn Hn F) as (LC & PC). unfold cblas_syrk. rewrite LA, LC. cbn [andb].
    apply (triangle_filled zero add mul SR false n lc c da _ da _ K alpha _ _ _ tri); auto.
    - intros i k Hi Hk. now apply PA. - intros k j Hk Hj. now apply PA.
    - intros i j Hi Hj. unfold P_Fast.entry. f_equal. apply map_ext_in. intros k Hk. apply in_seq in Hk. unfold P_Fast.at0. destruct (PA i k) as (_ & ->); [auto|lia|]. destruct (PA j k) as (_ & ->); [auto|lia|]. rewrite reverse_addr' by (pose proof (good_wf _ Ga) as [L _]; rewrite L, Sa; reflexivity). reflexivity.
    - intros i j. apply (symmetric zero add mul SR); auto using good_wf. unfold ndim. now rewrite Sa.
    - apply map_ext_in. intros [i j] H. apply (Permutation_in _ (PT _)), in_strict in H. cbn [fst snd]. rewrite <- !PC by lia. unfold col_pos, leading, extent. rewrite Sc. cbn [nth]. replace (n =? 1)%nat with false by lia. cbn [negb]. f_equal; lia. Qed.
  Lemma syrk_blas_filled tri n K c lc a la alpha : (forall l, Permutation (tri l) l) -> good la -> good lc -> l_shape la = [n; K] -> l_shape lc = [n; n] -> inside la (length a) -> inside lc (length c) -> injective lc ->
    exists c', syrk_blas zero add mul 2 tri c lc a la alpha = Ok c' /\ filled n n lc (entry a la a (reverse_axes la) K) alpha zero c c'.
  Proof. intros PT Ga Gc Sa Sc Ia Ic Jc. cbn [syrk_blas]. destruct (f_prefer lc) eqn:F; [now apply syrk_col_filled|].
    destruct (layout2 lc n n (good_wf _ Gc) Sc) as (s & t & EL). destruct (c_prefer lc) eqn:F'.
    - assert (FR : f_prefer (reverse_axes lc) = true). { rewrite EL in F' |- *. now rewrite c_prefer2 in F'. } rewrite FR.
      destruct (syrk_col_filled tri n K c (reverse_axes lc) a la alpha) as (c' & -> & H); auto using good_reverse, rev_inside, rev_injective, good_wf; try (cbn [reverse_axes l_shape]; rewrite ?Sc; reflexivity).
      exists c'. split; auto. apply (filled_turn add mul n n lc (entry a la a (reverse_axes la) K) (entry a la a (reverse_axes la) K) alpha zero c c' s t (l_offset lc)); auto.
      intros i j _ _. apply (symmetric zero add mul SR); auto using good_wf. unfold ndim. now rewrite Sa.
    - rewrite Sc. destruct (new_buffer [n; n] c lc true Gc Sc Ic) as (d0 & E0 & L0). destruct (fill _ _ _ _ _) as [d1| |]; try discriminate. cbn [bind] in E0 |- *. rewrite E0. cbn [bind].
      assert (NE : n <> 0%nat). { intro Z. rewrite EL, Z in F. unfold f_prefer, ndim, l_size in F. cbn [l_shape length Nat.eqb orb] in F. replace (size [0%nat; 0%nat]) with 0%nat in F by reflexivity. discriminate F. }
      rewrite (f_contig_prefer n n NE). destruct (contig_facts Fixed [n; n] ColMajor) as (Gl & Jl & Cl & Sl & Ol). change (new_contig Fixed [n; n] 0 ColMajor) with (new_f_contig Fixed [n; n] 0) in *.
      destruct (syrk_col_filled tri n K d0 (new_f_contig Fixed [n; n] 0) a la alpha) as (d & -> & H); auto. { rewrite L0. now apply covers_inside. } { now apply f_contig_prefer. } cbn [bind]. now apply (buffer_filled n n lc _ alpha zero c d0 d). Qed.
  Lemma dispatch_blas_filled tri same M K N c lc a la b lb alpha beta : (forall l, Permutation (tri l) l) -> (same = true -> a = b) -> good la -> good lb -> good lc -> l_shape la = [M; K] -> l_shape lb = [K; N] -> l_shape lc = [M; N] ->
    inside la (length a) -> inside lb (length b) -> inside lc (length c) -> injective lc -> beta = zero \/ ((f_prefer lc = true \/ c_prefer lc = true) /\ K <> 0%nat) ->
    exists c', dispatch_blas zero add mul eqb tri same c lc a la b lb alpha beta = Ok c' /\ filled M N lc (entry a la b lb K) alpha beta c c'.
  Proof. intros PT HS Ga Gb Gc Sa Sb Sc Ia Ib Ic Jc HB. unfold dispatch_blas. destruct (able_syrk zero eqb same la lb beta) eqn:E; [|now apply gemm_blas_filled].
    apply (able_syrk_ok zero eqb EQ) in E as (-> & E & ->). apply HS in E as <-. cbn [reverse_axes l_shape] in Sa. rewrite Sb in Sa. injection Sa as ->.
    pose proof (reverse_twice lb) as RT. set (lr := reverse_axes lb) in *. rewrite <- RT. apply syrk_blas_filled; auto; subst lr. cbn [reverse_axes l_shape]. rewrite Sb. reflexivity. Qed.
End Blas.
