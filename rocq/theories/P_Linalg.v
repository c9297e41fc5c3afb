(** Singular values and eigenvalues: the drivers and wrappers. *)
From Coq Require Import String.
From Verif Require Import Base Spec Spec_Matmul Spec_Tri Spec_Blas P_Index P_List M_Layout P_Layout P_Bounds P_Contig P_Strides M_Indexer P_Indexer M_Broadcast P_Broadcast M_Rearr P_Rearr P_BinOp M_Iter P_Iter M_Kernel P_Kernel Q_Kernel M_Tensor P_Tensor Q_Tensor Q_Copy P_Arg P_Axes M_Matmul P_Matmul P_Matmul2 P_Matmul3 P_Matmul4 Q_Matmul M_Tri P_Tri P_Tri2 P_Tri3 P_Tri4 Q_Tri M_Fast P_Fast P_Fast2 P_Fast3 P_Creation M_Blas Spec_BlasApi P_Blas P_Blas2 P_Blas3 P_Blas4 M_Reduce M_Linalg Spec_Linalg.
Local Open Scope Z_scope.

Section Fresh.
  Context {T : Type}.
  Lemma fresh_handed o m n : nonempty m n -> let l := new_contig Fixed [m; n] 0 o in exists d, ld o l = Some d /\ handed o l (uninit T (Z.of_nat (m * n))) m n d (fun _ _ => None).
  Proof. intros NE l. destruct (contig_facts Fixed [m; n] o) as (G & J & C & _ & _). fold l in G, J, C. assert (S : size [m; n] = (m * n)%nat) by (unfold size; cbn; lia). rewrite S in C.
    set (t := mkTensor (uninit T (Z.of_nat (m * n))) l). assert (I : inside l (length (t_data t))). { cbn [t t_data]. unfold uninit. rewrite repeat_length, Nat2Z.id. now apply covers_inside. }
    apply (packed_handed t o m n (fun _ _ => None)); auto.
    - apply tensor_ok_good. split; auto.
    - destruct NE as [N1 N2]. now destruct (contig_packed o m n N1 N2) as (_ & P & _).
    - split; [now destruct o|]. intros i j Hi Hj. specialize (I [i; j] ltac:(replace (l_shape l) with [m; n] by (now destruct o); now apply valid_pair)). unfold elem, peek. cbn [t t_data t_layout] in *. destruct (Z.ltb_spec (addr l [i; j]) 0); [lia|].
      unfold uninit in *. rewrite repeat_length in I. apply nth_error_repeat. lia. Qed.
  Lemma fresh_done o m n (X : nat -> nat -> T) d : length d = (m * n)%nat -> holds d (new_contig Fixed [m; n] 0 o) m n (fun i j => Some (X i j)) ->
    exists u, assume_init d = Ok u /\ is_matrix (mkTensor u (new_contig Fixed [m; n] 0 o)) m n X.
  Proof. intros L (E & H). destruct (contig_facts Fixed [m; n] o) as (G & J & C & _ & O). assert (S : size [m; n] = (m * n)%nat) by (unfold size; cbn; lia). rewrite S, <- L in C.
    destruct (fresh_result (new_contig Fixed [m; n] 0 o) d (fun ix v => match ix with [i; j] => v = X i j | _ => False end)) as (u & Eu & _ & Lu & Iu & Q); auto.
    - intros ix V. rewrite E in V. apply P_Fast3.valid2 in V as (i & j & -> & Hi & Hj). eauto.
    - exists u. split; auto. split; [apply tensor_ok_good; split; auto|]. split; auto. intros i j Hi Hj. destruct (Q [i; j]) as (v & V & ->); auto. rewrite E. now apply valid_pair. Qed.
  Lemma vector_ok (dev : order) {R} n (s : nat -> R) : is_vector (vector dev n s) n s.
  Proof. unfold vector. destruct (contig_facts Fixed [n] dev) as (G & J & C & _ & O). assert (S : size [n] = n) by (unfold size; cbn; lia). rewrite S in C.
    split; [apply tensor_ok_good; split; auto; cbn [t_data t_layout]; rewrite map_length, seq_length; now apply covers_inside|]. split; [now destruct dev|]. intros i Hi. unfold at_, elem. cbn [t_data t_layout].
    assert (A : addr (new_contig Fixed [n] 0 dev) [i] = Z.of_nat i) by (destruct dev; unfold addr, new_contig, new_c_contig, new_f_contig; cbn -[Z.mul Z.add Z.of_nat]; lia). rewrite A. unfold peek. destruct (Z.ltb_spec (Z.of_nat i) 0); [lia|]. rewrite Nat2Z.id. rewrite nth_error_map, nth_error_nth' with (d := 0%nat) by (rewrite seq_length; lia). now rewrite seq_nth by lia. Qed.
End Fresh.

Section Svd.
  Context {T R : Type} (dev dflt : order) (gesdd_lib gesvd_lib : @svd_routine T R).
  (** ** the drivers *)
  Definition fresh_window (o : order) (l : layout) (u : list (option T)) (m n : nat) (ldu : Z) : Prop := nonempty m n /\ handed o l u m n ldu (fun _ _ => None) /\ l_offset l = 0.
  Lemma svd_col_ok (lib : @svd_routine T R) j (d : list T) l m n base lda A u lu ldu v lv ldv : located ColMajor l m n base lda -> inside l (length d) -> holds d l m n A ->
    at_least ldu (fst (u_extents j m n)) = true -> at_least ldv (fst (vt_extents j m n)) = true ->
    (is_n j = false -> fresh_window ColMajor lu u (fst (u_extents j m n)) (snd (u_extents j m n)) ldu /\ fresh_window ColMajor lv v (fst (vt_extents j m n)) (snd (vt_extents j m n)) ldv) ->
    match lib j m n (rows m n A) with
    | None => svd_col lib j m n d base lda u ldu v ldv = Err Miscellaneous
    | Some (F, s, U, V) => exists d' u' v', svd_col lib j m n d base lda u ldu v ldv = Ok (d', s, u', v') /\ untouched_outside l d d' /\ holds d' l m n F /\
        (is_n j = false -> untouched_outside lu u u' /\ holds u' lu (fst (u_extents j m n)) (snd (u_extents j m n)) (fun i j => Some (U i j)) /\ untouched_outside lv v v' /\ holds v' lv (fst (vt_extents j m n)) (snd (vt_extents j m n)) (fun i j => Some (V i j)))
    end.
  Proof. intros W I H Au Av N. unfold svd_col. cbv zeta. pose proof W as (_ & L & _). cbn [rows_of] in L. rewrite L, Au, Av. cbn [check bind andb]. rewrite (located_read _ _ _ _ _ _ _ W H). cbn [bind]. destruct (lib j m n (rows m n A)) as [[[[F s] U] V]|]; auto.
    destruct (located_write _ _ _ _ _ _ A (fun i j _ => F i j) W I H) as (d' & -> & Ud & Hd). cbn [bind]. destruct (is_n j) eqn:J. { exists d', u, v. split; auto. split; auto. split; auto. discriminate. }
    destruct (N eq_refl) as ((_ & (Wu & Iu & _ & Hu) & Ou) & (_ & (Wv & Iv & _ & Hv) & Ov)). rewrite Ou in Wu. rewrite Ov in Wv. unfold put_col.
    destruct (located_write _ _ _ _ _ _ _ (fun i j _ => Some (U i j)) Wu Iu Hu) as (u' & -> & Uu & Hu'). cbn [bind]. destruct (located_write _ _ _ _ _ _ _ (fun i j _ => Some (V i j)) Wv Iv Hv) as (v' & -> & Uv & Hv'). cbn [bind]. exists d', u', v'. auto 10. Qed.
  Lemma col_window m n : nonempty m n -> fresh_window ColMajor (col_layout m n) (uninit T (Z.of_nat (m * n))) m n (ld_t m).
  Proof. intros NE. split; auto. split; auto. destruct (fresh_handed (T := T) ColMajor m n NE) as (d & El & Hh). destruct NE as [N1 N2]. rewrite contig_pair in *. cbn [ld] in *.
    destruct (col_facts m n) as (Lc & _); [now split|]. destruct Hh as (_ & Ih & Gh & Hh). split; [exact Lc|]. auto. Qed.
  Lemma at_least_ld m : at_least (ld_t m) m = true. Proof. unfold at_least, ld_t. lia. Qed.
  (** The result of a driver call. *)
  Definition svd_done (lib : @svd_routine T R) (call : res (list T * (nat -> R) * list (option T) * list (option T))) (j : job) (d : list T) (l : layout) (m n : nat) (A : nat -> nat -> T) (u : list (option T)) (lu : layout) (v : list (option T)) (lv : layout) : Prop :=
    match lib j m n (rows m n A) with
    | None => call = Err Miscellaneous
    | Some (F, s, U, V) => exists d' u' v', call = Ok (d', s, u', v') /\ untouched_outside l d d' /\ holds d' l m n F /\
        (is_n j = false -> untouched_outside lu u u' /\ holds u' lu (fst (u_extents j m n)) (snd (u_extents j m n)) (fun i j => Some (U i j)) /\ untouched_outside lv v v' /\ holds v' lv (fst (vt_extents j m n)) (snd (vt_extents j m n)) (fun i j => Some (V i j)))
    end.
  Lemma extents_nonempty j m n : nonempty m n -> nonempty (fst (u_extents j m n)) (snd (u_extents j m n)) /\ nonempty (fst (vt_extents j m n)) (snd (vt_extents j m n)).
  Proof. unfold nonempty. destruct j; cbn; lia. Qed.
  Lemma driver_svd_col back (lib : @svd_routine T R) j (d : list T) l m n lda A u lu ldu v lv ldv : handed ColMajor l d m n lda A ->
    fresh_window ColMajor lu u (fst (u_extents j m n)) (snd (u_extents j m n)) ldu -> fresh_window ColMajor lv v (fst (vt_extents j m n)) (snd (vt_extents j m n)) ldv ->
    svd_done lib (driver_svd back lib ColMajor j m n d (l_offset l) lda u ldu v ldv) j d l m n A u lu v lv.
  Proof. intros (W & I & _ & H) Hu Hv. unfold svd_done. cbn [driver_svd]. apply svd_col_ok; auto; [destruct Hu as (_ & ((_ & L & _) & _) & _)|destruct Hv as (_ & ((_ & L & _) & _) & _)]; exact L. Qed.
  Lemma driver_svd_row (lib : @svd_routine T R) j (d : list T) l m n lda A u lu ldu v lv ldv : nonempty m n -> handed RowMajor l d m n lda A ->
    fresh_window RowMajor lu u (fst (u_extents j m n)) (snd (u_extents j m n)) ldu -> fresh_window RowMajor lv v (fst (vt_extents j m n)) (snd (vt_extents j m n)) ldv ->
    svd_done lib (driver_svd (@back_c2r) lib RowMajor j m n d (l_offset l) lda u ldu v ldv) j d l m n A u lu v lv.
  Proof. intros NE HD (Nu & Hu & Ou) (Nv & Hv & Ov). unfold svd_done. cbn [driver_svd]. cbv zeta. destruct (to_col_ok d l m n lda A NE HD) as (c & -> & Ic & Hc). cbn [bind]. destruct (col_facts m n NE) as (Lc & _).
    set (ev := match j with JobN => (1%nat, n) | _ => vt_extents j m n end).
    assert (Ev : fst ev = fst (vt_extents j m n) /\ (is_n j = false -> snd ev = snd (vt_extents j m n))) by (destruct j; cbn; auto; split; auto; discriminate). destruct Ev as [Ev1 Ev2].
    pose proof (svd_col_ok lib j c _ m n 0 (ld_t m) A (uninit T (Z.of_nat (fst (u_extents j m n) * snd (u_extents j m n)))) (col_layout (fst (u_extents j m n)) (snd (u_extents j m n))) (ld_t (fst (u_extents j m n))) (uninit T (Z.of_nat (fst ev * snd ev))) (col_layout (fst ev) (snd ev)) (ld_t (fst ev)) Lc Ic Hc) as X.
    specialize (X (at_least_ld _)). rewrite Ev1 in *. specialize (X (at_least_ld _)). specialize (X ltac:(intros J; rewrite (Ev2 J); split; now apply col_window)).
    destruct (lib j m n (rows m n A)) as [[[[F s] U] V]|]; [|now rewrite X]. destruct X as (c' & u' & v' & -> & Uc & Hc' & X). cbn [bind].
    destruct (from_col_ok d c' l m n lda A F NE HD) as (d' & Ed & Ud & Hd); auto. { destruct Uc as [Uc _]. now rewrite Uc. }
    change (back_c2r m n d (l_offset l) lda c') with (from_col m n d (l_offset l) lda c'). rewrite Ed. cbn [bind]. destruct (is_n j) eqn:J. { exists d', u, v. split; auto. split; auto. split; auto. discriminate. }
    destruct (X eq_refl) as (Uu & Hu' & Uv & Hv'). rewrite (Ev2 eq_refl) in *.
    assert (I : forall a b (w : list (option T)), nonempty a b -> untouched_outside (col_layout a b) (uninit T (Z.of_nat (a * b))) w -> inside (col_layout a b) (length w)). { intros a b w Ne [L _]. rewrite L. now destruct (col_window a b Ne) as (_ & (_ & Iw & _) & _). }
    destruct (from_col_ok u u' lu _ _ ldu _ _ Nu Hu (I _ _ _ Nu Uu) Hu') as (u2 & Eu & Uu2 & Hu2). destruct (from_col_ok v v' lv _ _ ldv _ _ Nv Hv (I _ _ _ Nv Uv) Hv') as (v2 & Ev & Uv2 & Hv2). rewrite Ou in Eu. rewrite Ov in Ev.
    unfold from_col in Eu, Ev. unfold back_c2r. rewrite Eu. cbn [bind]. rewrite Ev. cbn [bind]. exists d', u2, v2. auto 10. Qed.
  (** ** the wrappers *)
  (** what [svd_run] returns for the matrix [A] *)
  Definition svd_result (lib : @svd_routine T R) (call : res (tensor R * option (tensor T) * option (tensor T))) (full uv : bool) (m n : nat) (A : nat -> nat -> T) : Prop :=
    let j := if uv then (if full then JobA else JobS) else JobN in
    match lib j m n (rows m n A) with
    | None => call = Err Miscellaneous
    | Some (F, s, U, V) => exists vs, is_vector vs (Nat.min m n) s /\ t_layout vs = new_contig Fixed [Nat.min m n] 0 dev /\ t_data vs = map s (seq 0 (Nat.min m n)) /\
      if uv then exists u v, call = Ok (vs, Some u, Some v) /\ is_matrix u (fst (u_extents j m n)) (snd (u_extents j m n)) U /\ is_matrix v (fst (vt_extents j m n)) (snd (vt_extents j m n)) V /\
          (exists o, t_layout u = new_contig Fixed [fst (u_extents j m n); snd (u_extents j m n)] 0 o /\ t_layout v = new_contig Fixed [fst (vt_extents j m n); snd (vt_extents j m n)] 0 o)
      else call = Ok (vs, None, None)
    end.
  Lemma svd_run_ok driver lib superb o r full uv m n A : nonempty m n -> lapack_operand r m n A -> not_broadcast r ->
    (forall j d l lda u lu ldu v lv ldv, handed o l d m n lda A -> fresh_window o lu u (fst (u_extents j m n)) (snd (u_extents j m n)) ldu -> fresh_window o lv v (fst (vt_extents j m n)) (snd (vt_extents j m n)) ldv ->
      svd_done lib (driver o j m n d (l_offset l) lda u ldu v ldv) j d l m n A u lu v lv) ->
    svd_result lib (svd_run dev dflt driver superb o r full uv) full uv m n A.
  Proof. intros NE HR NB HD. destruct (convert_order_ok dev dflt r m n A o NE HR NB) as (x & Ex & Tx & Hx & (lda & El & Hh) & _). unfold svd_result, svd_run. rewrite Ex. cbn [bind]. cbv zeta. unfold extent. rewrite (holds_shape _ _ _ _ _ Hx). cbn [nth]. rewrite El. cbn [unwrap_opt bind].
    set (j := if uv then _ else _). destruct (extents_nonempty j m n NE) as (Nu & Nv). replace (superb && (Nat.min m n =? 0)%nat) with false by (destruct superb; auto; destruct NE; cbn; lia). cbn [bind].
    destruct (fresh_handed (T := T) o _ _ Nu) as (ldu & Eu & Hu). destruct (fresh_handed (T := T) o _ _ Nv) as (ldv & Ev & Hv). rewrite Eu, Ev. cbn [unwrap_opt bind].
    assert (Of : forall a b, l_offset (new_contig Fixed [a; b] 0 o) = 0) by (intros; now destruct o).
    pose proof (HD j _ _ lda _ _ ldu _ _ ldv Hh (conj Nu (conj Hu (Of _ _))) (conj Nv (conj Hv (Of _ _)))) as X. unfold svd_done in X. destruct (lib j m n (rows m n A)) as [[[[F s] U] V]|]; [|now rewrite X].
    destruct X as (d' & u' & v' & -> & _ & _ & X). cbn [bind]. exists (vector dev (Nat.min m n) s). split; [apply vector_ok|]. split; auto. split; auto. destruct uv; auto.
    destruct (X ltac:(now destruct full)) as ((Lu & _) & Hu' & (Lv & _) & Hv'). unfold uninit in Lu, Lv. rewrite repeat_length, Nat2Z.id in Lu, Lv. destruct (fresh_done o _ _ U u' Lu Hu') as (du & -> & Mu). destruct (fresh_done o _ _ V v' Lv Hv') as (dv & -> & Mv). cbn [bind].
    eexists _, _. split; [reflexivity|]. split; auto. split; auto. exists o. auto. Qed.
  Lemma gesdd_ok r full uv m n A : nonempty m n -> lapack_operand r m n A -> not_broadcast r -> svd_result gesdd_lib (gesdd dev dflt gesdd_lib r full uv) full uv m n A.
  Proof. intros NE HR NB. unfold gesdd. cbv zeta. set (o := match c_prefer _ with true => _ | false => _ end). clearbody o. apply svd_run_ok; auto. intros j d l lda u lu ldu v lv ldv Hd Hu Hv. unfold driver_gesdd. destruct o; [now apply driver_svd_row|now apply driver_svd_col]. Qed.
  (** the order of GESVD's working copy *)
  Definition gesvd_order (l : layout) : order := match c_prefer l, f_prefer l with true, false => ColMajor | false, true => RowMajor | _, _ => dev end.
  Lemma gesvd_ok r full uv m n A : nonempty m n -> lapack_operand r m n A -> not_broadcast r -> gesvd_order (t_layout (ref_of r)) = ColMajor -> svd_result gesvd_lib (gesvd dev dflt gesvd_lib r full uv) full uv m n A.
  Proof. intros NE HR NB HO. unfold gesvd. cbv zeta. fold (gesvd_order (t_layout (ref_of r))). rewrite HO. apply svd_run_ok; auto. intros j d l lda u lu ldu v lv ldv Hd Hu Hv. unfold driver_gesvd. now apply driver_svd_col. Qed.
End Svd.

Section SvdPanic.
  Context {T R : Type} (dev dflt : order) (gesvd_lib : @svd_routine T R).
  Lemma gesvd_row_panic j (d : list T) l m n lda A u ldu v ldv F s U V : nonempty m n -> m <> 1%nat -> handed RowMajor l d m n lda A -> gesvd_lib j m n (rows m n A) = Some (F, s, U, V) ->
    driver_gesvd gesvd_lib RowMajor j m n d (l_offset l) lda u ldu v ldv = Panic.
  Proof. intros NE M HD E. unfold driver_gesvd. cbn [driver_svd]. cbv zeta. destruct (to_col_ok d l m n lda A NE HD) as (c & -> & Ic & Hc). cbn [bind]. destruct (col_facts m n NE) as (Lc & Wc & _).
    set (ev := match j with JobN => (1%nat, n) | _ => vt_extents j m n end).
    assert (Ev : fst ev = fst (vt_extents j m n) /\ (is_n j = false -> snd ev = snd (vt_extents j m n))) by (destruct j; cbn; auto; split; auto; discriminate). destruct Ev as [Ev1 Ev2]. destruct (extents_nonempty j m n NE) as (Nu & Nv).
    pose proof (svd_col_ok gesvd_lib j c _ m n 0 (ld_t m) A (uninit T (Z.of_nat (fst (u_extents j m n) * snd (u_extents j m n)))) (col_layout (fst (u_extents j m n)) (snd (u_extents j m n))) (ld_t (fst (u_extents j m n))) (uninit T (Z.of_nat (fst ev * snd ev))) (col_layout (fst ev) (snd ev)) (ld_t (fst ev)) Lc Ic Hc) as X.
    specialize (X (at_least_ld _)). rewrite Ev1 in *. specialize (X (at_least_ld _)). specialize (X ltac:(intros J; rewrite (Ev2 J); split; now apply col_window)). rewrite E in X.
    destruct X as (c' & u' & v' & -> & (Uc & _) & Hc' & X). cbn [bind]. destruct HD as (L & I & G & H). destruct (row_wf l m n _ lda d NE L I) as (Wr & Ir).
    unfold back_r2c at 1. destruct (l_r2c T d (row_layout m n (l_offset l) lda) c' (col_layout m n) m n) as [(_ & _ & S1 & _)|(_ & e & ->)]; auto.
    - eapply row_injective; eauto. - now rewrite Uc. - exfalso. cbn [col_layout l_stride nth] in S1. destruct NE. lia. Qed.
  Lemma gesvd_panics r (full uv : bool) m n A F s U V : nonempty m n -> m <> 1%nat -> lapack_operand r m n A -> not_broadcast r -> gesvd_order dev (t_layout (ref_of r)) = RowMajor ->
    gesvd_lib (if uv then (if full then JobA else JobS) else JobN) m n (rows m n A) = Some (F, s, U, V) -> gesvd dev dflt gesvd_lib r full uv = Panic.
  Proof. intros NE M HR NB HO E. unfold gesvd. cbv zeta. fold (gesvd_order dev (t_layout (ref_of r))). rewrite HO. destruct (convert_order_ok dev dflt r m n A RowMajor NE HR NB) as (x & Ex & Tx & Hx & (lda & El & Hh) & _). unfold svd_run. rewrite Ex. cbn [bind]. cbv zeta. unfold extent. rewrite (holds_shape _ _ _ _ _ Hx). cbn [nth]. rewrite El. cbn [unwrap_opt bind].
    set (j := if uv then _ else _) in *. destruct (extents_nonempty j m n NE) as (Nu & Nv). destruct (_ && _); auto. cbn [bind].
    destruct (fresh_handed (T := T) RowMajor _ _ Nu) as (ldu & Eu & Hu). destruct (fresh_handed (T := T) RowMajor _ _ Nv) as (ldv & Ev & Hv). rewrite Eu, Ev. cbn [unwrap_opt bind].
    now rewrite (gesvd_row_panic j _ _ m n lda A _ _ _ _ F s U V NE M Hh E). Qed.
End SvdPanic.

Section Eigh.
  Context {T R : Type} (zero one : T) (dev dflt : order).
  Notation triangular := (triangular zero one).
  (** what the overwritten matrix holds *)
  Definition ev_stored (vectors : bool) (u : uplo) (F A : nat -> nat -> T) (i j : nat) : T := if vectors || in_triangle u i j then F i j else A i j.
  Lemma ev_col_ok (lib : @ev_routine T R) vectors u (d : list T) l n base lda A : located ColMajor l n n base lda -> inside l (length d) -> holds d l n n A ->
    match lib vectors u n (rows n n (triangular u false A)) with
    | None => ev_col zero one lib vectors u n d base lda = Err Miscellaneous
    | Some (w, F) => exists d', ev_col zero one lib vectors u n d base lda = Ok (d', w) /\ untouched_outside l d d' /\ holds d' l n n (ev_stored vectors u F A)
    end.
  Proof. intros W I H. unfold ev_col. pose proof W as (_ & L & _). cbn [rows_of] in L. rewrite L. cbn [check bind]. rewrite (located_read_tri zero one _ _ _ _ _ u false _ W H). cbn [bind]. destruct (lib vectors u n _) as [[w F]|]; auto.
    destruct (located_write _ _ _ _ _ _ A (fun i j z => if vectors || in_triangle u i j then F i j else z) W I H) as (d' & -> & U & Hd). cbn [bind]. eauto. Qed.
  Lemma driver_ev_ok (lib : @ev_routine T R) o vectors u (d : list T) l n lda A : nonempty n n -> handed o l d n n lda A ->
    match lib vectors u n (rows n n (triangular u false A)) with
    | None => driver_ev zero one lib o vectors u n d (l_offset l) lda = Err Miscellaneous
    | Some (w, F) => exists d', driver_ev zero one lib o vectors u n d (l_offset l) lda = Ok (d', w) /\ untouched_outside l d d' /\ holds d' l n n (ev_stored vectors u F A)
    end.
  Proof. intros NE HD. destruct o; cbn [driver_ev]; [|destruct HD as (W & I & _ & H); now apply ev_col_ok].
    destruct (to_col_ok d l n n lda A NE HD) as (c & -> & Ic & Hc). cbn [bind]. destruct (col_facts n n NE) as (Lc & _). pose proof (ev_col_ok lib vectors u c _ n 0 (ld_t n) A Lc Ic Hc) as X. destruct (lib vectors u n _) as [[w F]|]; [|now rewrite X].
    destruct X as (c' & -> & U & Hc'). cbn [bind fst snd]. destruct (from_col_ok d c' l n n lda A _ NE HD (ltac:(destruct U as [U _]; now rewrite U)) Hc') as (d' & -> & Ud & Hd). cbn [bind]. eauto. Qed.
  Lemma default_chosen u : default_uplo dev u = chosen dev u. Proof. destruct u; auto; now destruct dev. Qed.
  Lemma ev_run_ok (lib : @ev_routine T R) r vectors u n A : nonempty n n -> lapack_operand r n n A ->
    match lib vectors (chosen dev u) n (rows n n (triangular (chosen dev u) false A)) with
    | None => ev_run zero one dev dflt lib r vectors u = Err Miscellaneous
    | Some (w, F) => exists y ws, ev_run zero one dev dflt lib r vectors u = Ok (ws, y) /\ is_vector ws n w /\ delivered (target_of r) y n n (ev_stored vectors (chosen dev u) F A)
    end.
  Proof. intros NE HR. destruct (convert_ok dev dflt r n n A NE HR) as (x & Ex & Tx & Hx & (lda & El & HD) & Cx & _). unfold ev_run. change (default_uplo dev u) with (chosen dev u). rewrite Ex. cbn [bind]. cbv zeta. unfold extent. rewrite (holds_shape _ _ _ _ _ Hx). cbn [nth]. rewrite Nat.eqb_refl. cbn [check bind]. rewrite El. cbn [unwrap_opt bind].
    pose proof (driver_ev_ok lib _ vectors (chosen dev u) _ _ _ _ _ NE HD) as X. destruct (lib _ _ _ _) as [[w F]|]; [|now rewrite X]. destruct X as (d' & -> & U & Hd). cbn [bind fst snd]. destruct (Cx d' _ U Hd) as (y & -> & Dy). cbn [bind]. exists y, (vector dev n w). split; auto. split; auto. apply vector_ok. Qed.
  Lemma ev_run_square (lib : @ev_routine T R) r vectors u m n A : nonempty m n -> lapack_operand r m n A -> m <> n -> ev_run zero one dev dflt lib r vectors u = Err InvalidLayout.
  Proof. intros NE HR N. destruct (convert_ok dev dflt r m n A NE HR) as (x & Ex & Tx & Hx & (lda & El & HD) & Cx & _). unfold ev_run. rewrite Ex. cbn [bind]. cbv zeta. unfold extent. rewrite (holds_shape _ _ _ _ _ Hx). cbn [nth]. destruct (Nat.eqb_spec m n); [contradiction|]. reflexivity. Qed.
  (** ** generalised problems *)
  Lemma gv_col_ok (lib : @gv_routine T R) itype vectors u (a b : list T) la lb n base lda baseb ldb A B : 1 <= itype <= 3 -> located ColMajor la n n base lda -> inside la (length a) -> holds a la n n A -> located ColMajor lb n n baseb ldb -> inside lb (length b) -> holds b lb n n B ->
    match lib itype vectors u n (rows n n (triangular u false A)) (rows n n (triangular u false B)) with
    | None => gv_col zero one lib itype vectors u n a base lda b baseb ldb = Err InvalidLayout
    | Some (w, F, G) => exists a' b', gv_col zero one lib itype vectors u n a base lda b baseb ldb = Ok (a', b', w) /\ untouched_outside la a a' /\ holds a' la n n (ev_stored vectors u F A) /\ untouched_outside lb b b' /\ holds b' lb n n (ev_stored false u G B)
    end.
  Proof. intros IT W I H W' I' H'. unfold gv_col. pose proof W as (_ & L & _). pose proof W' as (_ & L' & _). cbn [rows_of] in L, L'. rewrite L, L'. replace (1 <=? itype) with true by lia. replace (itype <=? 3) with true by lia. cbn [check bind andb].
    rewrite (located_read_tri zero one _ _ _ _ _ u false _ W H), (located_read_tri zero one _ _ _ _ _ u false _ W' H'). cbn [bind]. destruct (lib itype vectors u n _ _) as [[[w F] G]|]; auto.
    destruct (located_write _ _ _ _ _ _ A (fun i j z => if vectors || in_triangle u i j then F i j else z) W I H) as (a' & -> & U & Ha). cbn [bind]. destruct (located_write _ _ _ _ _ _ B (fun i j z => if in_triangle u i j then G i j else z) W' I' H') as (b' & -> & U' & Hb). cbn [bind]. exists a', b'. auto. Qed.
  Lemma driver_gv_ok (lib : @gv_routine T R) o itype vectors u (a b : list T) la lb n lda ldb A B : 1 <= itype <= 3 -> nonempty n n -> handed o la a n n lda A -> handed o lb b n n ldb B ->
    match lib itype vectors u n (rows n n (triangular u false A)) (rows n n (triangular u false B)) with
    | None => driver_gv zero one lib o itype vectors u n a (l_offset la) lda b (l_offset lb) ldb = Err InvalidLayout
    | Some (w, F, G) => exists a' b', driver_gv zero one lib o itype vectors u n a (l_offset la) lda b (l_offset lb) ldb = Ok (a', b', w) /\ untouched_outside la a a' /\ holds a' la n n (ev_stored vectors u F A) /\ untouched_outside lb b b' /\ holds b' lb n n (ev_stored false u G B)
    end.
  Proof. intros IT NE HA HB. destruct o; cbn [driver_gv]; [|destruct HA as (W & I & _ & H); destruct HB as (W' & I' & _ & H'); now apply gv_col_ok].
    destruct (to_col_ok a la n n lda A NE HA) as (ca & -> & Ia & Hca). destruct (to_col_ok b lb n n ldb B NE HB) as (cb & -> & Ib & Hcb). cbn [bind]. destruct (col_facts n n NE) as (La & _).
    pose proof (gv_col_ok lib itype vectors u ca cb _ _ n 0 (ld_t n) 0 (ld_t n) A B IT La Ia Hca La Ib Hcb) as X. destruct (lib itype vectors u n _ _) as [[[w F] G]|]; [|now rewrite X].
    destruct X as (a' & b' & -> & U & Ha & U' & Hb). cbn [bind fst snd]. destruct (from_col_ok a a' la n n lda A _ NE HA (ltac:(destruct U as [U _]; now rewrite U)) Ha) as (d & -> & Ud & Hd).
    cbn [bind]. destruct (from_col_ok b b' lb n n ldb B _ NE HB (ltac:(destruct U' as [U' _]; now rewrite U')) Hb) as (d2 & -> & Ud2 & Hd2). cbn [bind]. exists d, d2. auto. Qed.
  Lemma gv_run_ok (lib : @gv_routine T R) ra rb itype vectors u n A B : 1 <= itype <= 3 -> nonempty n n -> lapack_operand ra n n A -> not_broadcast ra -> lapack_operand rb n n B -> not_broadcast rb ->
    match lib itype vectors (chosen dev u) n (rows n n (triangular (chosen dev u) false A)) (rows n n (triangular (chosen dev u) false B)) with
    | None => gv_run zero one dev dflt lib ra rb itype vectors u = Err InvalidLayout
    | Some (w, F, G) => exists y ws, gv_run zero one dev dflt lib ra rb itype vectors u = Ok (ws, y) /\ is_vector ws n w /\ delivered (target_of ra) y n n (ev_stored vectors (chosen dev u) F A)
    end.
  Proof. intros IT NE HA NA HB NB. unfold gv_run. change (default_uplo dev u) with (chosen dev u). cbv zeta. set (o := working_order _). destruct (convert_order_ok dev dflt ra n n A o NE HA NA) as (xa & -> & Txa & Hxa & (lda & Ela & HDa) & Cxa). cbn [bind]. destruct (convert_order_ok dev dflt rb n n B o NE HB NB) as (xb & -> & Txb & Hxb & (ldb & Elb & HDb) & Cxb). cbn [bind].
    unfold extent. rewrite (holds_shape _ _ _ _ _ Hxa), (holds_shape _ _ _ _ _ Hxb). cbn [nth]. rewrite same_shape_refl. cbn [check bind]. rewrite Ela, Elb. cbn [unwrap_opt bind].
    pose proof (driver_gv_ok lib o itype vectors (chosen dev u) _ _ _ _ n lda ldb A B IT NE HDa HDb) as X. destruct (lib _ _ _ _ _ _) as [[[w F] G]|]; [|now rewrite X]. destruct X as (a' & b' & -> & Ua & Ha & _). cbn [bind fst snd].
    destruct (Cxa a' _ Ua Ha) as (ya & -> & Dya). cbn [bind]. exists ya, (vector dev n w). split; auto. split; auto. apply vector_ok. Qed.
End Eigh.
