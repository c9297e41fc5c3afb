(** The theorems about singular values, eigenvalues and determinants. *)
From Coq Require Import String Ring_theory.
From Verif Require Import Base Spec Spec_Matmul Spec_Tri Spec_Blas P_Index P_List M_Layout P_Layout P_Bounds P_Contig P_Strides M_Indexer P_Indexer M_Broadcast P_Broadcast M_Rearr P_Rearr P_BinOp M_Iter P_Iter M_Kernel P_Kernel Q_Kernel M_Tensor P_Tensor Q_Tensor Q_Copy P_Arg P_Axes M_Matmul P_Matmul P_Matmul2 P_Matmul3 P_Matmul4 Q_Matmul M_Tri P_Tri P_Tri2 P_Tri3 P_Tri4 Q_Tri M_Fast P_Fast P_Fast2 P_Fast3 P_Creation M_Blas Spec_BlasApi P_Blas P_Blas2 P_Blas3 P_Blas4 M_Reduce Q_Reduce M_Linalg Spec_Linalg P_Linalg P_Linalg2 P_Linalg3.
Local Open Scope Z_scope.

(** C82 *)
Lemma svd_of_result {T R} dev (lib : @svd_routine T R) call full m n A : svd_result dev lib call full true m n A ->
  match lib (if full then JobA else JobS) m n (rows m n A) with
  | None => call = Err Miscellaneous
  | Some (F, s, U, V) => exists vs u v, call = Ok (vs, Some u, Some v) /\ is_vector vs (Nat.min m n) s /\ is_matrix u m (if full then m else Nat.min m n) U /\ is_matrix v (if full then n else Nat.min m n) n V
  end.
Proof. unfold svd_result. cbv zeta iota. destruct (lib _ m n _) as [[[[F s] U] V]|]; auto. intros (vs & Hs & _ & _ & u & v & E & Hu & Hv & _). exists vs, u, v. split; auto. split; auto. destruct full; cbn [u_extents vt_extents fst snd] in *; auto. Qed.
Lemma l_svd : forall (T R : Type) dev dflt gesdd_lib gesvd_lib (t : tensor T) (full : bool) m n A, nonempty m n -> tensor_ok t -> holds (t_data t) (t_layout t) m n A ->
  match gesdd_lib (if full then JobA else JobS) m n (rows m n A) with
  | None => svd dev dflt gesdd_lib gesvd_lib t full = Err Miscellaneous
  | Some (F, s, U, V) => exists u (sv : tensor R) vt, svd dev dflt gesdd_lib gesvd_lib t full = Ok (u, sv, vt) /\
      is_matrix u m (if full then m else Nat.min m n) U /\ is_vector sv (Nat.min m n) s /\ is_matrix vt (if full then n else Nat.min m n) n V
  end.
Proof. intros T R dev dflt lib lib2 t full m n A NE Ht H. unfold svd. unfold t_shape. rewrite (holds_shape _ _ _ _ _ H). cbn [length Nat.eqb check bind]. unfold svd_simple. cbn [ref_of].
  pose proof (svd_of_result dev lib _ full m n A (gesdd_ok dev dflt lib (Ref t) full true m n A NE (conj Ht (conj H I)) I)) as X. replace (match full with true => (true, true) | false => (false, true) end) with (full, true) by now destruct full.
  change (("gesdd" =? "gesvd")%string) with false. change (("gesdd" =? "gesdd")%string) with true. cbv iota. destruct (lib _ m n _) as [[[[F s] U] V]|]; [|now rewrite X]. destruct X as (vs & u & v & -> & Hs & Hu & Hv). cbn [bind unwrap_opt]. exists u, vs, v. auto. Qed.
Lemma l_svd_reconstructs : forall (T R : Type) (zero one : T) add mul conj scale dev dflt gesdd_lib gesvd_lib (t : tensor T) (full : bool) m n A u (sv : tensor R) vt, nonempty m n -> tensor_ok t -> holds (t_data t) (t_layout t) m n A ->
  (forall F s U V, gesdd_lib (if full then JobA else JobS) m n (rows m n A) = Some (F, s, U, V) -> decomposes zero add mul scale m n (Nat.min m n) A U s V /\
     orthonormal_columns zero one add mul conj m (if full then m else Nat.min m n) U /\ orthonormal_rows zero one add mul conj (if full then n else Nat.min m n) n V) ->
  svd dev dflt gesdd_lib gesvd_lib t full = Ok (u, sv, vt) ->
  exists U s V, is_matrix u m (if full then m else Nat.min m n) U /\ is_vector sv (Nat.min m n) s /\ is_matrix vt (if full then n else Nat.min m n) n V /\
    decomposes zero add mul scale m n (Nat.min m n) A U s V /\ orthonormal_columns zero one add mul conj m (if full then m else Nat.min m n) U /\ orthonormal_rows zero one add mul conj (if full then n else Nat.min m n) n V.
Proof. intros T R zero one add mul conj scale dev dflt lib lib2 t full m n A u sv vt NE Ht H C E. pose proof (l_svd T R dev dflt lib lib2 t full m n A NE Ht H) as X. destruct (lib _ m n _) as [[[[F s] U] V]|]; [|congruence].
  destruct X as (u' & s' & v' & E' & Hu & Hs & Hv). rewrite E in E'. injection E' as <- <- <-. destruct (C F s U V eq_refl) as (C1 & C2 & C3). exists U, s, V. auto 10. Qed.
Lemma l_svdvals : forall (T R : Type) dev dflt gesdd_lib gesvd_lib (t : tensor T) m n A, nonempty m n -> tensor_ok t -> holds (t_data t) (t_layout t) m n A ->
  match gesdd_lib JobN m n (rows m n A) with
  | None => svdvals dev dflt gesdd_lib gesvd_lib t = Err Miscellaneous
  | Some (F, s, U, V) => exists sv : tensor R, svdvals dev dflt gesdd_lib gesvd_lib t = Ok sv /\ is_vector sv (Nat.min m n) s
  end.
Proof. intros T R dev dflt lib lib2 t m n A NE Ht H. unfold svdvals. unfold t_shape. rewrite (holds_shape _ _ _ _ _ H). cbn [length Nat.eqb check bind]. unfold svd_simple. cbn [ref_of].
  pose proof (gesdd_ok dev dflt lib (Ref t) false false m n A NE (conj Ht (conj H I)) I) as X. unfold svd_result in X. cbv zeta iota in X. change (("gesdd" =? "gesvd")%string) with false. change (("gesdd" =? "gesdd")%string) with true. cbv iota.
  destruct (lib _ m n _) as [[[[F s] U] V]|]; [|now rewrite X]. destruct X as (vs & Hs & _ & _ & ->). cbn [bind fst snd]. eauto. Qed.
Lemma l_svd_args : forall (T R : Type) dev dflt gesdd_lib gesvd_lib (r : reference T) (full : bool) m n A, nonempty m n -> tensor_ok (ref_of r) -> holds (t_data (ref_of r)) (t_layout (ref_of r)) m n A ->
  svd_args (R := R) dev dflt gesdd_lib gesvd_lib r (Some full) (Some "gesdd"%string) = svd dev dflt gesdd_lib gesvd_lib (ref_of r) full /\
  svd_args (R := R) dev dflt gesdd_lib gesvd_lib r (Some full) None = svd dev dflt gesdd_lib gesvd_lib (ref_of r) full /\
  svdvals_args (R := R) dev dflt gesdd_lib gesvd_lib r None None = svdvals dev dflt gesdd_lib gesvd_lib (ref_of r).
Proof. intros T R dev dflt lib lib2 r full m n A NE Ht H. unfold svd_args, svd, svdvals_args, svdvals. unfold t_shape. rewrite (holds_shape _ _ _ _ _ H). cbn [length Nat.eqb check bind]. unfold svd_simple. cbn [ref_of]. auto. Qed.
Lemma l_svd_invalid : forall (T R : Type) dev dflt gesdd_lib gesvd_lib (t : tensor T) (r : reference T) full d,
  (length (t_shape t) <> 2%nat -> svd (R := R) dev dflt gesdd_lib gesvd_lib t full = Err InvalidLayout /\ svdvals (R := R) dev dflt gesdd_lib gesvd_lib t = Err InvalidLayout) /\
  svd_args (R := R) dev dflt gesdd_lib gesvd_lib r None d = Err InvalidValue /\ svdvals_args (R := R) dev dflt gesdd_lib gesvd_lib r (Some full) d = Err InvalidValue /\
  (forall name, d = Some name -> name <> "gesdd"%string -> name <> "gesvd"%string ->
     svd_args (R := R) dev dflt gesdd_lib gesvd_lib r (Some full) d = Err InvalidValue /\ svdvals_args (R := R) dev dflt gesdd_lib gesvd_lib r None d = Err InvalidValue).
Proof. intros T R dev dflt lib lib2 t r full d. split; [|split; [|split]]; auto.
  - intro N. unfold svd, svdvals. destruct (Nat.eqb_spec (length (t_shape t)) 2); [contradiction|]. auto.
  - intros name -> N1 N2. unfold svd_args, svdvals_args, svd_simple. cbn [check bind]. apply String.eqb_neq in N1, N2. rewrite N1, N2. destruct full; auto. Qed.
(** GESVD *)
Lemma l_gesvd_partial : forall (T R : Type) dev dflt gesdd_lib gesvd_lib (r : reference T) (full : bool) m n A, nonempty m n -> tensor_ok (ref_of r) -> holds (t_data (ref_of r)) (t_layout (ref_of r)) m n A ->
  let l := t_layout (ref_of r) in (c_prefer l = true /\ f_prefer l = false) \/ (c_prefer l = f_prefer l /\ dev = ColMajor) ->
  match gesvd_lib (if full then JobA else JobS) m n (rows m n A) with
  | None => svd_args dev dflt gesdd_lib gesvd_lib r (Some full) (Some "gesvd"%string) = Err Miscellaneous
  | Some (F, s, U, V) => exists u (sv : tensor R) vt, svd_args dev dflt gesdd_lib gesvd_lib r (Some full) (Some "gesvd"%string) = Ok (u, sv, vt) /\
      is_matrix u m (if full then m else Nat.min m n) U /\ is_vector sv (Nat.min m n) s /\ is_matrix vt (if full then n else Nat.min m n) n V
  end.
Proof. intros T R dev dflt lib2 lib r full m n A NE Ht H l HO. assert (O : gesvd_order dev (t_layout (ref_of (Ref (ref_of r)))) = ColMajor). { cbn [ref_of]. fold l. unfold gesvd_order. destruct HO as [[-> ->]|[-> ->]]; auto. now destruct (f_prefer l). }
  unfold svd_args, svd_simple. cbn [check bind].
  pose proof (svd_of_result dev lib _ full m n A (gesvd_ok dev dflt lib (Ref (ref_of r)) full true m n A NE (conj Ht (conj H I)) I O)) as X. replace (match full with true => (true, true) | false => (false, true) end) with (full, true) by now destruct full.
  change (("gesvd" =? "gesvd")%string) with true. cbv iota. destruct (lib _ m n _) as [[[[F s] U] V]|]; [|now rewrite X]. destruct X as (vs & u & v & -> & Hs & Hu & Hv). cbn [bind unwrap_opt]. exists u, vs, v. auto. Qed.
Lemma l_gesvd_refuted : forall (T R : Type) dev dflt gesdd_lib gesvd_lib (r : reference T) (full : bool) m n A F (s : nat -> R) U V, nonempty m n -> m <> 1%nat -> tensor_ok (ref_of r) -> holds (t_data (ref_of r)) (t_layout (ref_of r)) m n A ->
  let l := t_layout (ref_of r) in (c_prefer l = false /\ f_prefer l = true) \/ (c_prefer l = f_prefer l /\ dev = RowMajor) ->
  gesvd_lib (if full then JobA else JobS) m n (rows m n A) = Some (F, s, U, V) -> svd_args dev dflt gesdd_lib gesvd_lib r (Some full) (Some "gesvd"%string) = Panic.
Proof. intros T R dev dflt lib2 lib r full m n A F s U V NE M Ht H l HO E. assert (O : gesvd_order dev (t_layout (ref_of (Ref (ref_of r)))) = RowMajor). { cbn [ref_of]. fold l. unfold gesvd_order. destruct HO as [[-> ->]|[-> ->]]; auto. now destruct (f_prefer l). }
  unfold svd_args, svd_simple. cbn [check bind]. replace (match full with true => (true, true) | false => (false, true) end) with (full, true) by now destruct full.
  change (("gesvd" =? "gesvd")%string) with true. cbv iota. rewrite (gesvd_panics dev dflt lib (Ref (ref_of r)) full true m n A F s U V NE M (conj Ht (conj H I)) I O E). reflexivity. Qed.

(** C83 *)
Lemma stored_all {T} u (F A : nat -> nat -> T) i j : ev_stored true u F A i j = F i j. Proof. reflexivity. Qed.
Lemma l_eigh : forall (T R : Type) (zero one : T) dev dflt syev_lib syevd_lib sygv_lib sygvd_lib (r : reference T) u n A, nonempty n n -> lapack_operand r n n A ->
  match syevd_lib true (chosen dev u) n (rows n n (triangular zero one (chosen dev u) false A)) with
  | None => eigh zero one dev dflt syev_lib syevd_lib sygv_lib sygvd_lib r u = Err Miscellaneous
  | Some (w, V) => exists (ws : tensor R) y, eigh zero one dev dflt syev_lib syevd_lib sygv_lib sygvd_lib r u = Ok (ws, y) /\ is_vector ws n w /\ delivered (target_of r) y n n V
  end.
Proof. intros T R zero one dev dflt l1 l2 l3 l4 r u n A NE HR. unfold eigh. pose proof HR as (_ & H & _). unfold t_shape. rewrite (holds_shape _ _ _ _ _ H). cbn [length Nat.eqb check bind]. unfold eigh_simple, simple_args. cbn [e_a e_b e_uplo e_vals_only e_type e_driver negb].
  change (("evd" =? "ev")%string) with false. change (("evd" =? "evd")%string) with true. cbv iota. pose proof (ev_run_ok zero one dev dflt l2 r true u n A NE HR) as X. destruct (l2 _ _ _ _) as [[w V]|]; [|now rewrite X]. destruct X as (y & ws & -> & Hw & Dy). cbn [bind fst snd].
  rewrite (delivered_clone dev _ _ _ _ _ Dy). cbn [bind unwrap_opt fst snd]. rewrite (delivered_clone dev _ _ _ _ _ Dy). cbn [bind]. exists ws, y. auto. Qed.
Lemma l_eigh_solves : forall (T R : Type) (zero one : T) add mul conj re scale hermi dev dflt syev_lib syevd_lib sygv_lib sygvd_lib (r : reference T) u n A (ws : tensor R) y, nonempty n n -> lapack_operand r n n A ->
  (forall w V, syevd_lib true (chosen dev u) n (rows n n (triangular zero one (chosen dev u) false A)) = Some (w, V) -> eigen zero add mul scale n (symmetric_from conj re hermi (chosen dev u) A) V w /\ orthonormal_columns zero one add mul conj n n V) ->
  eigh zero one dev dflt syev_lib syevd_lib sygv_lib sygvd_lib r u = Ok (ws, y) ->
  exists w V, is_vector ws n w /\ delivered (target_of r) y n n V /\ eigen zero add mul scale n (symmetric_from conj re hermi (chosen dev u) A) V w /\ orthonormal_columns zero one add mul conj n n V.
Proof. intros T R zero one add mul conj re scale hermi dev dflt l1 l2 l3 l4 r u n A ws y NE HR C E. pose proof (l_eigh T R zero one dev dflt l1 l2 l3 l4 r u n A NE HR) as X. destruct (l2 _ _ _ _) as [[w V]|]; [|congruence]. destruct X as (ws' & y' & E' & Hw & Dy). rewrite E in E'. injection E' as <- <-. destruct (C w V eq_refl). exists w, V. auto. Qed.
Lemma l_eigvalsh : forall (T R : Type) (zero one : T) dev dflt syev_lib syevd_lib sygv_lib sygvd_lib (r : reference T) u n A, nonempty n n -> lapack_operand r n n A ->
  match syevd_lib false (chosen dev u) n (rows n n (triangular zero one (chosen dev u) false A)) with
  | None => eigvalsh zero one dev dflt syev_lib syevd_lib sygv_lib sygvd_lib r u = Err Miscellaneous
  | Some (w, V) => exists ws : tensor R, eigvalsh zero one dev dflt syev_lib syevd_lib sygv_lib sygvd_lib r u = Ok ws /\ is_vector ws n w
  end.
Proof. intros T R zero one dev dflt l1 l2 l3 l4 r u n A NE HR. unfold eigvalsh. pose proof HR as (_ & H & _). unfold t_shape. rewrite (holds_shape _ _ _ _ _ H). cbn [length Nat.eqb check bind]. unfold eigh_simple, simple_args. cbn [e_a e_b e_uplo e_vals_only e_type e_driver negb].
  change (("evd" =? "ev")%string) with false. change (("evd" =? "evd")%string) with true. cbv iota. pose proof (ev_run_ok zero one dev dflt l2 r false u n A NE HR) as X. destruct (l2 _ _ _ _) as [[w V]|]; [|now rewrite X]. destruct X as (y & ws & -> & Hw & Dy). cbn [bind fst snd]. exists ws. auto. Qed.
Lemma l_eigh_general : forall (T R : Type) (zero one : T) dev dflt syev_lib syevd_lib sygv_lib sygvd_lib (a b : tensor T) u itype n A B, nonempty n n -> tensor_ok a -> holds (t_data a) (t_layout a) n n A -> tensor_ok b -> holds (t_data b) (t_layout b) n n B -> 1 <= itype <= 3 ->
  match sygvd_lib itype true (chosen dev u) n (rows n n (triangular zero one (chosen dev u) false A)) (rows n n (triangular zero one (chosen dev u) false B)) with
  | None => eigh_general zero one dev dflt syev_lib syevd_lib sygv_lib sygvd_lib a b u itype = Err InvalidLayout
  | Some (w, V, _) => exists (ws : tensor R) v, eigh_general zero one dev dflt syev_lib syevd_lib sygv_lib sygvd_lib a b u itype = Ok (ws, Owned v) /\ is_vector ws n w /\ is_matrix v n n V
  end.
Proof. intros T R zero one dev dflt l1 l2 l3 l4 a b u itype n A B NE Ta Ha Tb Hb IT. unfold eigh_general. unfold t_shape. rewrite (holds_shape _ _ _ _ _ Ha), (holds_shape _ _ _ _ _ Hb). cbn [length Nat.eqb]. replace ((1 <=? itype) && (itype <=? 3)) with true by lia. cbn [check bind]. unfold eigh_simple. cbn [e_a e_b e_uplo e_vals_only e_type e_driver negb].
  change (("gvd" =? "gv")%string) with false. change (("gvd" =? "gvd")%string) with true. cbv iota. pose proof (gv_run_ok zero one dev dflt l4 (Ref a) (Ref b) itype true u n A B IT NE (conj Ta (conj Ha I)) I (conj Tb (conj Hb I)) I) as X.
  destruct (l4 _ _ _ _ _ _) as [[[w V] G]|]; [|now rewrite X]. destruct X as (y & ws & -> & Hw & Dy). cbn [bind fst snd]. rewrite (delivered_clone dev _ _ _ _ _ Dy). cbn [bind unwrap_opt fst snd]. destruct Dy as (v & -> & Tv & Hv). exists ws, v. split; auto. split; auto. now split. Qed.
Lemma l_eigh_general_solves : forall (T R : Type) (zero one : T) add mul conj re scale hermi dev dflt syev_lib syevd_lib sygv_lib sygvd_lib (a b : tensor T) u itype n A B (ws : tensor R) y, nonempty n n -> tensor_ok a -> holds (t_data a) (t_layout a) n n A -> tensor_ok b -> holds (t_data b) (t_layout b) n n B -> 1 <= itype <= 3 ->
  (forall w V G, sygvd_lib itype true (chosen dev u) n (rows n n (triangular zero one (chosen dev u) false A)) (rows n n (triangular zero one (chosen dev u) false B)) = Some (w, V, G) ->
     eigen_general zero add mul scale itype n (symmetric_from conj re hermi (chosen dev u) A) (symmetric_from conj re hermi (chosen dev u) B) V w) ->
  eigh_general zero one dev dflt syev_lib syevd_lib sygv_lib sygvd_lib a b u itype = Ok (ws, y) ->
  exists w v V, y = Owned v /\ is_vector ws n w /\ is_matrix v n n V /\ eigen_general zero add mul scale itype n (symmetric_from conj re hermi (chosen dev u) A) (symmetric_from conj re hermi (chosen dev u) B) V w.
Proof. intros T R zero one add mul conj re scale hermi dev dflt l1 l2 l3 l4 a b u itype n A B ws y NE Ta Ha Tb Hb IT C E. pose proof (l_eigh_general T R zero one dev dflt l1 l2 l3 l4 a b u itype n A B NE Ta Ha Tb Hb IT) as X.
  destruct (l4 _ _ _ _ _ _) as [[[w V] G]|]; [|congruence]. destruct X as (ws' & v & E' & Hw & Dy). rewrite E in E'. injection E' as <- ->. specialize (C w V G eq_refl). exists w, v, V. auto. Qed.
Lemma l_eigh_invalid : forall (T R : Type) (zero one : T) dev dflt syev_lib syevd_lib sygv_lib sygvd_lib (r : reference T) (a b : tensor T) u itype m n A, nonempty m n -> lapack_operand r m n A ->
  (m <> n -> eigh (R := R) zero one dev dflt syev_lib syevd_lib sygv_lib sygvd_lib r u = Err InvalidLayout /\ eigvalsh (R := R) zero one dev dflt syev_lib syevd_lib sygv_lib sygvd_lib r u = Err InvalidLayout) /\
  (~ 1 <= itype <= 3 -> eigh_general (R := R) zero one dev dflt syev_lib syevd_lib sygv_lib sygvd_lib a b u itype = Err InvalidLayout) /\
  (length (t_shape a) <> 2%nat -> eigh (R := R) zero one dev dflt syev_lib syevd_lib sygv_lib sygvd_lib (Ref a) u = Err InvalidLayout /\ eigvalsh (R := R) zero one dev dflt syev_lib syevd_lib sygv_lib sygvd_lib (Ref a) u = Err InvalidLayout /\
     eigh_general (R := R) zero one dev dflt syev_lib syevd_lib sygv_lib sygvd_lib a b u itype = Err InvalidLayout).
Proof. intros T R zero one dev dflt l1 l2 l3 l4 r a b u itype m n A NE HR. split; [|split].
  - intro N. pose proof HR as (_ & H & _). unfold eigh, eigvalsh, t_shape. rewrite (holds_shape _ _ _ _ _ H). cbn [length Nat.eqb check bind]. unfold eigh_simple, simple_args. cbn [e_a e_b e_uplo e_vals_only e_type e_driver negb].
    change (("evd" =? "ev")%string) with false. change (("evd" =? "evd")%string) with true. cbv iota. rewrite !(fun v => ev_run_square zero one dev dflt l2 r v u m n A NE HR N). auto.
  - intro N. unfold eigh_general. destruct (_ =? 2)%nat; auto. destruct (_ =? 2)%nat; auto. replace ((1 <=? itype) && (itype <=? 3)) with false by lia. reflexivity.
  - intro N. unfold eigh, eigvalsh, eigh_general. cbn [ref_of]. destruct (Nat.eqb_spec (length (t_shape a)) 2); [contradiction|]. auto. Qed.
Lemma l_eigh_args : forall (T R : Type) (zero one : T) dev dflt syev_lib syevd_lib sygv_lib sygvd_lib (r : reference T) u itype driver n A, nonempty n n -> lapack_operand r n n A ->
  (driver = Some "ev"%string ->
   match syev_lib true (chosen dev u) n (rows n n (triangular zero one (chosen dev u) false A)) with
   | None => eigh_of_args zero one dev dflt syev_lib syevd_lib sygv_lib sygvd_lib (mkEigh r None u false itype None None driver) = Err Miscellaneous
   | Some (w, V) => exists (ws : tensor R) y, eigh_of_args zero one dev dflt syev_lib syevd_lib sygv_lib sygvd_lib (mkEigh r None u false itype None None driver) = Ok (ws, y) /\ is_vector ws n w /\ delivered (target_of r) y n n V
   end) /\
  (driver = Some "evd"%string \/ driver = None -> eigh_of_args (R := R) zero one dev dflt syev_lib syevd_lib sygv_lib sygvd_lib (mkEigh r None u false itype None None driver) = eigh zero one dev dflt syev_lib syevd_lib sygv_lib sygvd_lib r u) /\
  (forall name b, driver = Some name -> name <> "ev"%string -> name <> "evd"%string -> name <> "gv"%string -> name <> "gvd"%string -> eigh_of_args (R := R) zero one dev dflt syev_lib syevd_lib sygv_lib sygvd_lib (mkEigh r b u false itype None None driver) = Err InvalidValue) /\
  (forall b i v, eigh_of_args (R := R) zero one dev dflt syev_lib syevd_lib sygv_lib sygvd_lib (mkEigh r b u true itype i v driver) = Err InvalidValue).
Proof. intros T R zero one dev dflt l1 l2 l3 l4 r u itype driver n A NE HR. split; [|split; [|split]].
  - intros ->. unfold eigh_of_args, eigh_simple. cbn [e_a e_b e_uplo e_vals_only e_type e_driver negb check bind]. change (("ev" =? "ev")%string) with true. cbv iota. pose proof (ev_run_ok zero one dev dflt l1 r true u n A NE HR) as X. destruct (l1 _ _ _ _) as [[w V]|]; [|now rewrite X]. destruct X as (y & ws & -> & Hw & Dy). cbn [bind fst snd].
    rewrite (delivered_clone dev _ _ _ _ _ Dy). cbn [bind unwrap_opt fst snd]. exists ws, y. auto.
  - intros HD. pose proof (l_eigh T R zero one dev dflt l1 l2 l3 l4 r u n A NE HR) as X. revert X. unfold eigh. pose proof HR as (_ & H & _). unfold t_shape. rewrite (holds_shape _ _ _ _ _ H). cbn [length Nat.eqb check bind]. unfold eigh_of_args, eigh_simple, simple_args. cbn [e_a e_b e_uplo e_vals_only e_type e_driver negb check bind].
    assert (Dr : match driver with Some d => d | None => "evd"%string end = "evd"%string) by (destruct HD as [-> | ->]; reflexivity). rewrite Dr. change (("evd" =? "ev")%string) with false. change (("evd" =? "evd")%string) with true. cbv iota. intros _. pose proof (ev_run_ok zero one dev dflt l2 r true u n A NE HR) as X. destruct (l2 _ _ _ _) as [[w V]|]; [|now rewrite X]. destruct X as (y & ws & -> & Hw & Dy). cbn [bind fst snd].
    rewrite (delivered_clone dev _ _ _ _ _ Dy). cbn [bind unwrap_opt fst snd]. now rewrite (delivered_clone dev _ _ _ _ _ Dy).
  - intros name b -> N1 N2 N3 N4. apply String.eqb_neq in N1, N2, N3, N4. unfold eigh_of_args, eigh_simple. cbn [e_a e_b e_uplo e_vals_only e_type e_driver negb check bind]. rewrite N1, N2, N3, N4. now destruct b.
  - reflexivity. Qed.
Lemma l_eigh_subset_refuted : forall (T R : Type) (zero one : T) dev dflt syev_lib syevd_lib sygv_lib sygvd_lib (r : reference T) u lo hi values n A w V, nonempty n n -> lapack_operand r n n A ->
  syevd_lib true (chosen dev u) n (rows n n (triangular zero one (chosen dev u) false A)) = Some (w, V) ->
  exists (ws : tensor R) y, eigh_of_args zero one dev dflt syev_lib syevd_lib sygv_lib sygvd_lib (mkEigh r None u false 1 (Some (lo, hi)) values None) = Ok (ws, y) /\ is_vector ws n w /\ delivered (target_of r) y n n V.
Proof. intros T R zero one dev dflt l1 l2 l3 l4 r u lo hi values n A w V NE HR E. pose proof (l_eigh T R zero one dev dflt l1 l2 l3 l4 r u n A NE HR) as X. rewrite E in X. destruct (l_eigh_args T R zero one dev dflt l1 l2 l3 l4 r u 1 None n A NE HR) as (_ & Y & _). rewrite <- (Y (or_intror eq_refl)) in X. exact X. Qed.

(** C84 *)
Section Det.
  Context {T R : Type} (zero one : T) (add mul sub : T -> T -> T) (opp : T -> T) (RT : ring_theory zero one add mul sub opp eq).
  Context (sgn : T -> T) (abs : T -> R) (radd rmul : R -> R -> R) (rzero rone : R) (log exp : R -> R) (scale : T -> R -> T) (PL : polar zero one mul opp sgn abs radd rmul rzero rone log exp scale) (MR : comm_monoid rzero radd).
  Lemma ring_monoid : comm_monoid one mul.
  Proof. destruct RT. split; [|split]; auto. Qed.
  Lemma sgn_total f (l : list nat) : total one mul (map (fun i => sgn (f i)) l) = sgn (total one mul (map f l)).
  Proof. destruct PL as (_ & Sm & S1 & _). unfold total. induction l as [|i l IH]; [now symmetry|]. cbn [map fold_right]. now rewrite Sm, IH. Qed.
  Lemma abs_total f (l : list nat) : (forall i, In i l -> f i <> zero) -> exp (total rzero radd (map (fun i => log (abs (f i))) l)) = abs (total one mul (map f l)).
  Proof. destruct PL as (_ & _ & _ & _ & Am & A1 & _ & Em & E1 & El). unfold total. induction l as [|i l IH]; intro H; [cbn; congruence|]. cbn [map fold_right]. rewrite Em, El, Am, IH; auto; [intros; apply H; now right|apply H; now left]. Qed.
  Lemma sgn_signed k x : signed opp k (sgn x) = sgn (signed opp k x). Proof. destruct PL as (_ & _ & _ & So & _). unfold signed. destruct (Nat.even k); auto. Qed.
  Lemma abs_signed k x : abs (signed opp k x) = abs x. Proof. destruct PL as (_ & _ & _ & _ & _ & _ & Ao & _). unfold signed. destruct (Nat.even k); auto. Qed.
  Lemma slogdet_det dev dflt getrf_lib r n A : nonempty n n -> lapack_operand r n n A -> (forall F p, getrf_lib n n (rows n n A) = Some (F, p) -> lu_factored zero one add mul n A F p) ->
    match getrf_lib n n (rows n n A) with
    | None => slogdet one dev dflt getrf_lib mul opp sgn abs radd rzero log r = Err Miscellaneous
    | Some _ => exists l, slogdet one dev dflt getrf_lib mul opp sgn abs radd rzero log r = Ok (sgn (determinant zero one add mul opp n A), l) /\ exp l = abs (determinant zero one add mul opp n A)
    end.
  Proof. intros NE HR C. pose proof (slogdet_ok one dev dflt getrf_lib mul opp sgn abs radd rzero log ring_monoid MR r n n A NE HR) as X. destruct (getrf_lib n n (rows n n A)) as [[F p]|]; auto. specialize (C F p eq_refl). rewrite Nat.min_id in X.
    rewrite (lu_determinant zero one add mul sub opp RT n _ (determinant_ok zero one add mul sub opp RT n) A F p C). eexists. rewrite X. rewrite (sgn_total (fun i => F i i)), sgn_signed. split; [reflexivity|]. rewrite abs_signed. apply (abs_total (fun i => F i i)). intros i Hi. apply in_seq in Hi. apply C. lia. Qed.
End Det.
Lemma l_determinant : forall (T : Type) (zero one : T) add mul sub opp n, ring_theory zero one add mul sub opp eq -> is_determinant zero one add mul n (determinant zero one add mul opp n).
Proof. intros T zero one add mul sub opp n RT. now apply (determinant_ok zero one add mul sub opp). Qed.
Lemma l_slogdet : forall (T R : Type) (zero one : T) add mul sub opp sgn (abs : T -> R) radd rmul rzero rone log exp scale dev dflt getrf_lib (r : reference T) n A,
  ring_theory zero one add mul sub opp eq -> polar zero one mul opp sgn abs radd rmul rzero rone log exp scale -> comm_monoid rzero radd -> nonempty n n -> lapack_operand r n n A ->
  (forall F p, getrf_lib n n (rows n n A) = Some (F, p) -> lu_factored zero one add mul n A F p) ->
  match getrf_lib n n (rows n n A) with
  | None => slogdet_f one dev dflt getrf_lib mul opp sgn abs radd rzero log r = Err Miscellaneous
  | Some _ => exists l, slogdet_f one dev dflt getrf_lib mul opp sgn abs radd rzero log r = Ok (sgn (determinant zero one add mul opp n A), l) /\ exp l = abs (determinant zero one add mul opp n A)
  end.
Proof. intros T R zero one add mul sub opp sgn abs radd rmul rzero rone log exp scale dev dflt lib r n A RT PL MR NE HR C. unfold slogdet_f. pose proof HR as (_ & H & _). unfold t_shape. rewrite (holds_shape _ _ _ _ _ H). cbn [length Nat.eqb check bind]. eapply slogdet_det; eauto. Qed.
Lemma l_det : forall (T R : Type) (zero one : T) add mul sub opp sgn (abs : T -> R) radd rmul rzero rone log exp scale dev dflt getrf_lib (r : reference T) n A,
  ring_theory zero one add mul sub opp eq -> polar zero one mul opp sgn abs radd rmul rzero rone log exp scale -> comm_monoid rzero radd -> nonempty n n -> lapack_operand r n n A ->
  (forall F p, getrf_lib n n (rows n n A) = Some (F, p) -> lu_factored zero one add mul n A F p) ->
  det_f one dev dflt getrf_lib mul opp sgn abs radd rzero log exp scale r =
    match getrf_lib n n (rows n n A) with None => Err Miscellaneous | Some _ => Ok (determinant zero one add mul opp n A) end.
Proof. intros T R zero one add mul sub opp sgn abs radd rmul rzero rone log exp scale dev dflt lib r n A RT PL MR NE HR C. unfold det_f. pose proof HR as (_ & H & _). unfold t_shape. rewrite (holds_shape _ _ _ _ _ H). cbn [length Nat.eqb check bind].
  pose proof (slogdet_det zero one add mul sub opp RT sgn abs radd rmul rzero rone log exp scale PL MR dev dflt lib r n A NE HR C) as X. destruct (lib n n _); [|now rewrite X]. destruct X as (l & -> & El). cbn [bind fst snd]. rewrite El. destruct PL as (P1 & _). now rewrite P1. Qed.
Lemma l_det_singular_refuted : forall (T R : Type) (zero one : T) add mul sub opp sgn (abs : T -> R) radd rmul rzero rone log exp scale dev dflt getrf_lib (r : reference T) n A,
  ring_theory zero one add mul sub opp eq -> (forall x y, mul x y = zero -> x = zero \/ y = zero) -> one <> zero -> polar zero one mul opp sgn abs radd rmul rzero rone log exp scale -> comm_monoid rzero radd -> nonempty n n -> lapack_operand r n n A ->
  (forall F p, getrf_lib n n (rows n n A) = Some (F, p) -> lu_factored zero one add mul n A F p) ->
  determinant zero one add mul opp n A = zero -> det_f one dev dflt getrf_lib mul opp sgn abs radd rzero log exp scale r = Err Miscellaneous.
Proof. intros T R zero one add mul sub opp sgn abs radd rmul rzero rone log exp scale dev dflt lib r n A RT ID N1 PL MR NE HR C Z0. rewrite (l_det T R zero one add mul sub opp sgn abs radd rmul rzero rone log exp scale dev dflt lib r n A RT PL MR NE HR C).
  destruct (lib n n (rows n n A)) as [[F p]|] eqn:E; auto. exfalso. specialize (C F p eq_refl). rewrite (lu_determinant zero one add mul sub opp RT n _ (determinant_ok zero one add mul sub opp RT n) A F p C) in Z0.
  assert (P : forall l, (forall i, In i l -> F i i <> zero) -> total one mul (map (fun i => F i i) l) <> zero). { induction l as [|i l IH]; intro H; [exact N1|]. change (mul (F i i) (total one mul (map (fun i => F i i) l)) <> zero). intro X. destruct (ID _ _ X) as [Y|Y]; [apply (H i); [now left|auto]|]. apply IH; auto. intros; apply H; now right. }
  apply (P (seq 0 n)). { intros i Hi. apply in_seq in Hi. apply C. lia. } unfold signed in Z0. destruct (Nat.even _); auto. assert (Y : forall x, opp x = zero -> x = zero). { intros x X. rewrite <- (Radd_0_l RT x), (Radd_comm RT). rewrite <- X at 1. apply (Ropp_def RT). } now apply Y. Qed.
Lemma l_det_nonsquare_refuted : forall (T R : Type) (one : T) mul opp sgn (abs : T -> R) radd rzero log exp scale dev dflt getrf_lib (r : reference T) m n A F p, comm_monoid one mul -> comm_monoid rzero radd -> nonempty m n -> m <> n -> lapack_operand r m n A ->
  getrf_lib m n (rows m n A) = Some (F, p) -> exists v, det_f one dev dflt getrf_lib mul opp sgn abs radd rzero log exp scale r = Ok v.
Proof. intros T R one mul opp sgn abs radd rzero log exp scale dev dflt lib r m n A F p MM MR NE _ HR E. unfold det_f. pose proof HR as (_ & H & _). unfold t_shape. rewrite (holds_shape _ _ _ _ _ H). cbn [length Nat.eqb check bind].
  pose proof (slogdet_ok one dev dflt lib mul opp sgn abs radd rzero log MM MR r m n A NE HR) as X. rewrite E in X. rewrite X. cbn [bind]. eauto. Qed.
Lemma l_gesvd_empty_refuted : forall (T R : Type) dev dflt gesdd_lib gesvd_lib (full : bool),
  exists t : tensor T, tensor_ok t /\ t_shape t = [0; 3]%nat /\ svd_args (R := R) dev dflt gesdd_lib gesvd_lib (Ref t) (Some full) (Some "gesvd"%string) = Panic.
Proof. intros T R dev dflt g1 g2 full. exists (mkTensor [] (mkLayout [0; 3]%nat [3; 1] 0)). split; [concrete_tensor|]. split; [reflexivity|]. destruct dev, dflt, full; vm_compute; reflexivity. Qed.
