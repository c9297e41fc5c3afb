(** Arg reductions: the running candidate is the first least element of what has been visited. *)
From Verif Require Import Base Spec P_Index P_List M_Layout P_Layout P_Bounds P_Contig P_Strides M_Indexer P_Indexer M_Broadcast M_Rearr M_Iter P_Iter P_Rearr P_BinOp Q_Rearr M_Kernel P_Kernel M_Tensor P_Tensor Q_Tensor Q_Copy M_Reduce P_Reduce.
Local Open Scope Z_scope.

(** ** indexed iteration *)
Definition ipending (o : order) (it : iter) : list (list nat) := firstn (it_end it - it_start it) (skipn (it_start it) (enum o (l_shape (it_layout it)))).
Definition items (l : layout) (ixs : list (list nat)) : list (list nat * Z) := map (fun ix => (ix, addr l ix)) ixs.
Lemma ipending_addr o it : pending o it = map (addr (it_layout it)) (ipending o it).
Proof. unfold pending, ipending, addrs. now rewrite skipn_map, firstn_map. Qed.
Lemma ipending_new o k l it : iter_new o k l = Ok it -> it_layout it = l -> ipending o it = enum o (l_shape l).
Proof. intros E L. unfold ipending. rewrite L. assert (X : it_start it = 0%nat /\ it_end it = size (l_shape l)).
  { unfold iter_new in E. destruct (_ : res (list nat)); try discriminate. cbn in E. injection E as <-. auto. }
  destruct X as [-> ->]. rewrite Nat.sub_0_r. cbn [skipn]. apply firstn_all2. now rewrite enum_length. Qed.
Lemma ipending_length o it : inv o it -> length (ipending o it) = (it_end it - it_start it)%nat.
Proof. intro I. rewrite <- (pending_length o) by auto. rewrite ipending_addr. now rewrite map_length. Qed.
Lemma collect_indexed_loop_ok fuel : forall o it, inv o it -> (length (ipending o it) < fuel)%nat ->
  collect_indexed_loop fuel (mkIterLayout o it) = Ok (items (it_layout it) (ipending o it)).
Proof. induction fuel as [|fuel IH]; intros o it I L; [lia|]. cbn [collect_indexed_loop]. destruct (iter_next_ok o it I) as (fi & Ef & If & Lf & Pf).
  unfold indexed_next, il_next. cbn [il_order il_iter]. rewrite Ef. cbn [bind fst snd].
  unfold iter_next in Ef. destruct (Nat.leb_spec (it_end it) (it_start it)) as [Le|Lt].
  - injection Ef as E1 E2. rewrite <- E1. cbn [option_map]. unfold ipending. replace (it_end it - it_start it)%nat with 0%nat by lia. reflexivity.
  - pose proof I as (W & N & H1 & H2 & H3). destruct (H3 Lt) as (A1 & A2 & A3 & A4).
    assert (Ls : nth_error (enum o (l_shape (it_layout it))) (it_start it) = Some (it_istart it)) by (rewrite enum_nth by lia; now rewrite A1).
    assert (IP : ipending o it = it_istart it :: firstn (it_end it - S (it_start it)) (skipn (S (it_start it)) (enum o (l_shape (it_layout it))))).
    { unfold ipending. apply (firstn_skipn_cons _ _ _ _ Lt Ls). }
    unfold to_usize in Ef. destruct (it_ostart it <? 0); [discriminate|]. cbn [bind] in Ef. injection Ef as E1 E2. rewrite <- E1. cbn [option_map].
    assert (IPf : ipending o fi = firstn (it_end it - S (it_start it)) (skipn (S (it_start it)) (enum o (l_shape (it_layout it))))) by (rewrite <- E2; reflexivity).
    rewrite IH; auto; [|rewrite IP in L; cbn [length] in L; rewrite IPf; lia]. cbn [bind]. rewrite IP, Lf, IPf. unfold items. cbn [map]. do 3 f_equal.
    exact A2. Qed.
Lemma collect_indexed_ok o it : inv o it -> collect_indexed (mkIterLayout o it) = Ok (items (it_layout it) (ipending o it)).
Proof. intro I. unfold collect_indexed, il_len. cbn [il_iter]. rewrite (iter_len_ok o) by auto. cbn [bind]. apply collect_indexed_loop_ok; auto. rewrite ipending_length, pending_length by auto. lia. Qed.
Lemma split_bounds o k it n a b : iter_split_at o k it n = Ok (a, b) -> it_start a = it_start it /\ it_end a = (it_start it + n)%nat /\ it_start b = (it_start it + n)%nat /\ it_end b = it_end it.
Proof. unfold iter_split_at. destruct (unravel _ _ _ _); cbn [bind]; try discriminate. intro E. injection E as <- <-. cbn. auto. Qed.
Lemma isplit_ok o k it n : inv o it -> size (l_shape (it_layout it)) <> 0%nat -> (n <= length (ipending o it))%nat ->
  exists a b, iter_split_at o k it n = Ok (a, b) /\ inv o a /\ inv o b /\ it_layout a = it_layout it /\ it_layout b = it_layout it
    /\ ipending o a = firstn n (ipending o it) /\ ipending o b = skipn n (ipending o it).
Proof. intros I S0 Hn. rewrite ipending_length in Hn by auto. destruct (iter_split_ok o k it n I S0) as (a & b & E & Ia & Ib & La & Lb & _); [rewrite pending_length; auto|].
  exists a, b. do 5 (split; auto). destruct (split_bounds _ _ _ _ _ _ E) as (E1 & E2 & E3 & E4). unfold ipending. rewrite La, Lb, E1, E2, E3, E4. split.
  - rewrite firstn_firstn. f_equal. lia.
  - rewrite skipn_firstn_comm, skipn_skipn'. f_equal. lia. Qed.

(** ** row-major enumeration is lexicographic *)
Lemma lex_irrefl a : lex_lt a a = false.
Proof. induction a as [|x a IH]; cbn [lex_lt]; auto. now rewrite Nat.ltb_irrefl, IH, andb_false_r. Qed.
Inductive increasing : list (list nat) -> Prop :=
| inc_nil : increasing []
| inc_cons : forall x xs, (forall y, In y xs -> lex_lt y x = false) -> increasing xs -> increasing (x :: xs).
Lemma increasing_app a b : increasing a -> increasing b -> (forall x y, In x a -> In y b -> lex_lt y x = false) -> increasing (a ++ b).
Proof. induction 1 as [|x xs Hx I IH]; intros Ib Hab; cbn; auto. constructor.
  - intros y Hy. apply in_app_or in Hy as [Hy|Hy]; auto. apply Hab; auto. now left.
  - apply IH; auto. intros; apply Hab; auto. now right. Qed.
Lemma increasing_app_inv a b : increasing (a ++ b) -> increasing a /\ increasing b /\ (forall x y, In x a -> In y b -> lex_lt y x = false).
Proof. induction a as [|x a IH]; cbn; intro I; [split; [constructor|split; [auto|intros ? ? []]]|]. inversion I as [|? ? Hx I']; subst. destruct (IH I') as (A & B & C).
  split; [|split; auto]. - constructor; auto. intros y Hy. apply Hx, in_or_app. now left. - intros u y [<-|Hu] Hy; auto. apply Hx, in_or_app. now right. Qed.
Lemma row_major_increasing s : increasing (row_major s).
Proof. induction s as [|n s IH]; cbn [row_major]; [constructor; [intros ? []|constructor]|].
  assert (G : forall m k, increasing (flat_map (fun i => map (cons i) (row_major s)) (seq k m)) /\ forall x, In x (flat_map (fun i => map (cons i) (row_major s)) (seq k m)) -> exists i r, x = i :: r /\ (k <= i)%nat).
  { induction m as [|m IHm]; intro k; cbn [seq flat_map]; [split; [constructor|intros ? []]|]. destruct (IHm (S k)) as [I1 I2]. split.
    - apply increasing_app; auto.
      + clear - IH. induction IH as [|x xs Hx I IH']; cbn [map]; constructor; auto. intros y Hy. apply in_map_iff in Hy as (z & <- & Hz). cbn [lex_lt]. now rewrite Nat.ltb_irrefl, Hx, andb_false_r by auto.
      + intros x y Hx Hy. apply in_map_iff in Hx as (z & <- & Hz). destruct (I2 y Hy) as (i & r & -> & Hi). cbn [lex_lt]. destruct (Nat.ltb_spec i k), (Nat.eqb_spec i k); try lia; reflexivity.
    - intros x Hx. apply in_app_or in Hx as [Hx|Hx].
      + apply in_map_iff in Hx as (z & <- & Hz). eauto.
      + destruct (I2 x Hx) as (i & r & -> & Hi). do 2 eexists. split; [reflexivity|lia]. }
  apply G. Qed.

(** a weak order among the values [Val] *)
Definition weak_order_on {T} (Val : T -> Prop) (lt : T -> T -> bool) : Prop :=
  (forall x y z, Val x -> Val y -> Val z -> lt x y = true -> lt y z = true -> lt x z = true) /\
  (forall x y z, Val x -> Val y -> Val z -> lt x z = true -> lt x y = true \/ lt y z = true).
Lemma weak_order_all {T} (lt : T -> T -> bool) : weak_order lt -> weak_order_on (fun _ => True) lt.
Proof. intros (_ & Tr & Ng). split; intros; eauto. Qed.
Section ArgP.
  Context {T : Type} (Val : T -> Prop) (lt eqb : T -> T -> bool) (WO : weak_order_on Val lt).
  Variable a : list T.
  Variable l : layout.
  Context (HV : forall ix x, valid (l_shape l) ix -> elem a l ix = Some x -> Val x).

  (** the candidate for the indices [ixs] *)
  Definition cand (ixs : list (list nat)) (c : option (list nat * T)) : Prop :=
    match c with
    | None => ixs = []
    | Some (i, x) => exists before after, ixs = before ++ i :: after /\ elem a l i = Some x /\
        (forall j y, In j before -> elem a l j = Some y -> lt x y = true) /\ (forall j y, In j after -> elem a l j = Some y -> lt y x = false)
    end.
  Lemma cand_join u v cu j y : cand u cu -> cand v (Some (j, y)) -> (forall p q, In p u -> In q v -> lex_lt q p = false) -> (forall ix, In ix (u ++ v) -> valid (l_shape l) ix) ->
    exists c, arg_fold (arg_comp lt) (arg_eq eqb) a cu (j, addr l j) = Ok c /\ cand (u ++ v) c.
  Proof. destruct WO as (Tr & Ng). intros Cu (b2 & a2 & E2 & X2 & B2 & A2) Ord Vs. assert (VV : forall k z, In k u \/ In k v -> elem a l k = Some z -> Val z) by (intros k z Hk; apply HV, Vs, in_or_app; exact Hk). assert (Vy : Val y) by (apply (VV j); auto; right; subst v; apply in_or_app; right; now left). unfold arg_fold. cbn [snd fst]. rewrite (proj2 (zget_peek a (addr l j) y) X2). cbn [bind].
    destruct cu as [[i x]|]; cbn [option_map snd arg_comp].
    - destruct Cu as (b1 & a1 & E1 & X1 & B1 & A1). assert (Vx : Val x) by (apply (VV i); auto; left; subst u; apply in_or_app; right; now left). destruct (lt y x) eqn:C.
      + eexists. split; [reflexivity|]. exists (u ++ b2), a2. subst v. split; [now rewrite app_assoc|]. split; auto. split; auto.
        intros k z Hk Z. apply in_app_or in Hk as [Hk|Hk]; [|now apply (B2 k)]. assert (Vz : Val z) by (apply (VV k); auto). subst u. apply in_app_or in Hk as [Hk|[Hk|Hk]].
        * apply (Tr y x z); auto. now apply (B1 k).
        * subst k. rewrite Z in X1. injection X1 as ->. auto.
        * destruct (Ng y z x Vy Vz Vx C) as [Q|Q]; auto. rewrite (A1 k z) in Q by auto. discriminate.
      + assert (R : cand (u ++ v) (Some (i, x))).
        { exists b1, (a1 ++ v). subst u. split; [now rewrite <- app_assoc|]. split; auto. split; auto. intros k z Hk Z. apply in_app_or in Hk as [Hk|Hk]; [now apply (A1 k)|]. assert (Vz : Val z) by (apply (VV k); auto).
          subst v. destruct (lt z x) eqn:Q; auto. apply in_app_or in Hk as [Hk|[Hk|Hk]].
          * assert (lt y x = true) by (apply (Tr y z x); auto; now apply (B2 k)). congruence.
          * subst k. congruence.
          * destruct (Ng z y x Vz Vy Vx Q) as [Q'|Q']; [rewrite (A2 k z) in Q' by auto|]; congruence. }
        cbn [arg_eq]. assert (LX : lex_lt j i = false). { apply Ord; [subst u|subst v]; apply in_or_app; right; now left. } rewrite LX.
        destruct (eqb y x); eexists; (split; [reflexivity|exact R]).
    - cbn in Cu. subst u. eexists. split; [reflexivity|]. exists b2, a2. auto. Qed.
  Lemma arg_fold_items ixs : inside l (length a) -> (forall ix, In ix ixs -> valid (l_shape l) ix) -> forall done c, cand done c -> increasing (done ++ ixs) -> (forall ix, In ix done -> valid (l_shape l) ix) ->
    exists c', fold_res (arg_fold (arg_comp lt) (arg_eq eqb) a) (items l ixs) c = Ok c' /\ cand (done ++ ixs) c'.
  Proof. intro I. induction ixs as [|ix r IH]; intros V done c C Inc Vd; cbn [items map fold_res]; [exists c; now rewrite app_nil_r|].
    destruct (elem_inside a l ix I) as (x & E); [apply V; now left|].
    destruct (increasing_app_inv done (ix :: r) Inc) as (I1 & I2 & I3).
    destruct (cand_join done [ix] c ix x) as (c1 & E1 & C1); auto.
    { exists [], []. split; auto. split; auto. split; intros ? ? []. }
    { intros p q Hp [<-|[]]. apply I3; auto. now left. }
    { intros z Hz. apply in_app_or in Hz as [Hz|[<-|[]]]; auto. apply V. now left. }
    rewrite E1. cbn [bind]. destruct (IH (fun z Hz => V z (or_intror Hz)) (done ++ [ix]) c1 C1) as (c2 & E2 & C2); [now rewrite <- app_assoc|intros z Hz; apply in_app_or in Hz as [Hz|[<-|[]]]; auto; apply V; now left|].
    exists c2. split; auto. now rewrite <- app_assoc in C2. Qed.
  Lemma cand_first ix x : cand (row_major (l_shape l)) (Some (ix, x)) -> first_least lt (elem a l) (l_shape l) ix.
  Proof. intros (b & f & E & X & B & A). exists b, f, x. auto. Qed.
  Lemma cand_nonempty ixs c : cand ixs c -> ixs <> [] -> exists i x, c = Some (i, x).
  Proof. destruct c as [[i x]|]; cbn; intros C N; eauto. contradiction. Qed.
  Lemma row_major_nonempty s : size s <> 0%nat -> row_major s <> [].
  Proof. intros H E. apply H. pose proof (enum_length RowMajor s) as L. cbn [enum] in L. rewrite E in L. cbn in L. auto. Qed.
  Lemma arg_all_ok k : wf l -> nonneg l -> inside l (length a) -> size (l_shape l) <> 0%nat ->
    exists ix, reduce_all_unraveled_arg (arg_comp lt) (arg_eq eqb) k a l = Ok ix /\ first_least lt (elem a l) (l_shape l) ix.
  Proof. intros W N I S0. unfold reduce_all_unraveled_arg, l_size. replace (0 <? size (l_shape l))%nat with true by lia. cbn [check bind].
    unfold indexed_new, iter_layout_new. destruct (iter_new_inv RowMajor k l W N) as (it & E & Ii & L & P). rewrite E. cbn [bind]. rewrite collect_indexed_ok by auto. cbn [bind].
    rewrite (ipending_new _ _ _ _ E L), L. destruct (arg_fold_items (row_major (l_shape l)) I (fun ix H => proj1 (in_enum RowMajor _ ix) H) [] None eq_refl) as (c & Ec & C); [apply row_major_increasing|intros ? []|].
    cbn [enum]. rewrite Ec. cbn [bind]. destruct (cand_nonempty _ _ C (row_major_nonempty _ S0)) as (i & x & ->). exists i. split; auto. now apply (cand_first i x). Qed.
  Lemma arg_join_ok u v cu cv : cand u cu -> cand v cv -> (forall p q, In p u -> In q v -> lex_lt q p = false) -> (forall ix, In ix (u ++ v) -> valid (l_shape l) ix) ->
    exists c, arg_join (arg_comp lt) (arg_eq eqb) a l cu cv = Ok c /\ cand (u ++ v) c.
  Proof. intros Cu Cv O Vs. destruct cu as [[i x]|], cv as [[j y]|]; cbn [arg_join].
    - change (index_uncheck l j) with (addr l j). apply cand_join with (y := y); auto.
    - cbn in Cv. subst v. rewrite app_nil_r. eauto.
    - cbn in Cu. subst u. eauto.
    - cbn in Cu, Cv. subst. eexists. split; [reflexivity|]. reflexivity. Qed.
  Lemma par_arg_ok k t : inside l (length a) -> size (l_shape l) <> 0%nat -> forall it, inv RowMajor it -> it_layout it = l ->
    exists c, par_arg (arg_comp lt) (arg_eq eqb) k t a l (mkIterLayout RowMajor it) = Ok c /\ cand (ipending RowMajor it) c.
  Proof. intros I S0. assert (IncP : forall it, it_layout it = l -> increasing (ipending RowMajor it)).
    { intros it L. unfold ipending. rewrite L. pose proof (row_major_increasing (l_shape l)) as R. cbn [enum].
      rewrite <- (firstn_skipn (it_start it)) in R. apply increasing_app_inv in R as (_ & R & _). rewrite <- (firstn_skipn (it_end it - it_start it)) in R. now apply increasing_app_inv in R as (R & _). }
    assert (ValP : forall it, it_layout it = l -> forall ix, In ix (ipending RowMajor it) -> valid (l_shape l) ix).
    { intros it L ix H. apply (in_enum RowMajor). unfold ipending in H. rewrite L in H. rewrite <- (firstn_skipn (it_start it)). apply in_or_app. right. rewrite <- (firstn_skipn (it_end it - it_start it)). apply in_or_app. now left. }
    induction t as [|n x IHx y IHy]; intros it Ii L; cbn [par_arg].
    - rewrite collect_indexed_ok by auto. cbn [bind]. rewrite L. destruct (arg_fold_items (ipending RowMajor it) I) with (done := @nil (list nat)) (c := @None (list nat * T)) as (c & Ec & C).
      + now apply ValP.
      + reflexivity.
      + now apply IncP.
      + intros ? [].
      + rewrite Ec. cbn [bind app]. exists c. destruct c; auto.
    - unfold il_len. cbn [il_iter]. rewrite (iter_len_ok RowMajor) by auto. cbn [bind]. rewrite ipending_addr, map_length.
      destruct (isplit_ok RowMajor k it (Nat.min n (length (ipending RowMajor it))) Ii) as (u & v & E & Iu & Iv & Lu & Lv & Pu & Pv); [now rewrite L|lia|].
      unfold il_split_at. cbn [il_order il_iter]. rewrite E. cbn [bind fst snd].
      destruct (IHx u Iu ltac:(congruence)) as (cu & Eu & Cu). destruct (IHy v Iv ltac:(congruence)) as (cv & Ev & Cv). rewrite Eu. cbn [bind]. rewrite Ev. cbn [bind].
      pose proof (IncP it L) as Inc. rewrite <- (firstn_skipn (Nat.min n (length (ipending RowMajor it))) (ipending RowMajor it)) in Inc. apply increasing_app_inv in Inc as (_ & _ & Ord).
      destruct (arg_join_ok _ _ cu cv Cu Cv) as (c & Ec & C); [now rewrite Pu, Pv|rewrite Pu, Pv, firstn_skipn; now apply ValP|]. exists c. split; auto. now rewrite Pu, Pv, firstn_skipn in C. Qed.
  Lemma arg_all_rayon_ok switch t k : wf l -> nonneg l -> inside l (length a) -> size (l_shape l) <> 0%nat ->
    exists ix, reduce_all_unraveled_arg_rayon (arg_comp lt) (arg_eq eqb) switch t k a l = Ok ix /\ first_least lt (elem a l) (l_shape l) ix.
  Proof. intros W N I S0. unfold reduce_all_unraveled_arg_rayon, l_size. replace (0 <? size (l_shape l))%nat with true by lia. cbn [check bind].
    destruct (size (l_shape l) <? switch)%nat; [now apply arg_all_ok|].
    unfold indexed_new, iter_layout_new. destruct (iter_new_inv RowMajor k l W N) as (it & E & Ii & L & P). rewrite E. cbn [bind].
    destruct (par_arg_ok k t I S0 it Ii L) as (c & Ec & C). rewrite Ec. cbn [bind]. rewrite (ipending_new _ _ _ _ E L) in C. cbn [enum] in C.
    destruct (cand_nonempty _ _ C (row_major_nonempty _ S0)) as (i & x & ->). exists i. split; auto. now apply (cand_first i x). Qed.
End ArgP.

(** ** splitting an index into summed and remaining parts *)
Lemma merge_pick n ax sx mx : NoDup ax -> (forall a, In a ax -> (a < n)%nat) -> merge n ax sx mx = pick (inv_perm (ax ++ axes_except n ax)) 0%nat (sx ++ mx).
Proof. intros ND B. pose proof (Permutation_length (except_perm n ax ND B)) as L. rewrite seq_length in L. unfold merge, pick, inv_perm. now rewrite L, map_map. Qed.
Lemma merge_spec n ax sx mx : NoDup ax -> (forall a, In a ax -> (a < n)%nat) -> length sx = length ax -> length mx = length (axes_except n ax) ->
  length (merge n ax sx mx) = n /\ pick ax 0%nat (merge n ax sx mx) = sx /\ pick (axes_except n ax) 0%nat (merge n ax sx mx) = mx.
Proof. intros ND B Ls Lm. pose proof (except_perm n ax ND B) as P. pose proof (Permutation_length P) as L. rewrite seq_length, app_length in L. split; [unfold merge; now rewrite map_length, seq_length|].
  rewrite merge_pick by auto. assert (X : pick (ax ++ axes_except n ax) 0%nat (pick (inv_perm (ax ++ axes_except n ax)) 0%nat (sx ++ mx)) = sx ++ mx) by (apply (pick_inv_r _ n); auto; rewrite app_length; lia).
  rewrite pick_app in X. apply app_inj_1 in X; [tauto|]. now rewrite pick_length. Qed.
Lemma merge_split n ax ix : NoDup ax -> (forall a, In a ax -> (a < n)%nat) -> length ix = n -> merge n ax (pick ax 0%nat ix) (pick (axes_except n ax) 0%nat ix) = ix.
Proof. intros ND B L. rewrite merge_pick, <- pick_app by auto. apply (pick_inv _ n); auto. now apply except_perm. Qed.
Lemma merge_valid s ax sx mx : NoDup ax -> (forall a, In a ax -> (a < length s)%nat) -> valid (pick ax 0%nat s) sx -> valid (pick (axes_except (length s) ax) 0%nat s) mx -> valid s (merge (length s) ax sx mx).
Proof. intros ND B Vs Vm. pose proof (except_perm (length s) ax ND B) as P. assert (V : valid (pick (ax ++ axes_except (length s) ax) 0%nat s) (sx ++ mx)).
  { rewrite pick_app. apply valid_app; [now apply valid_length in Vs|]. auto. }
  destruct (valid_pick_inv _ _ _ P V) as (ix & Vi & E). rewrite merge_pick, E, (pick_inv _ (length s)); auto. now apply valid_length in Vi. Qed.
Definition sub (ax : list nat) (l : layout) : layout := mkLayout (pick ax 0%nat (l_shape l)) (pick ax 0 (l_stride l)) (l_offset l).
Lemma merge_addr l ax sx mx : wf l -> NoDup ax -> (forall a, In a ax -> (a < ndim l)%nat) -> length sx = length ax -> length mx = length (axes_except (ndim l) ax) ->
  addr l (merge (ndim l) ax sx mx) = addr (sub (axes_except (ndim l) ax) l) mx + dot (pick ax 0 (l_stride l)) sx.
Proof. intros W ND B Ls Lm. destruct (merge_spec (ndim l) ax sx mx ND B Ls Lm) as (L & E1 & E2). unfold addr, sub. cbn [l_offset l_stride].
  rewrite (dot_split_axes ax (ndim l) (l_stride l) (merge (ndim l) ax sx mx)) by (auto; apply W). rewrite E1, E2. lia. Qed.

(** ** orders that permute axes *)
Lemma joint_permuted dflt ls o sh : ls <> [] -> Forall good ls -> Forall (fun l => l_shape l = sh) ls -> o = OC \/ o = OF \/ o = OK ->
  exists ax, Permutation ax (seq 0 (length sh)) /\ translate_to_col_major dflt ls o = Ok (map (permuted ax) ls).
Proof. intros NE G Sh Ho. assert (X : exists l0 ls0, ls = l0 :: ls0) by (destruct ls; [congruence|eauto]). destruct X as (l0 & ls0 & El). rewrite (translate_unfold dflt ls l0 ls0 o El (same_shapes_ok ls sh Sh)). cbv zeta.
  rewrite Forall_forall in G, Sh.
  assert (M : forall (f : layout -> res layout) (g : layout -> layout), (forall l, In l ls -> f l = Ok (g l)) -> map_res f ls = Ok (map g ls)).
  { intros f g. clear. induction ls as [|l ls IH]; intro H; auto. cbn [map_res map]. rewrite H by now left. cbn [bind]. rewrite IH; auto. intros; apply H; now right. }
  destruct Ho as [->|[->| ->]].
  - exists (rev (seq 0 (length sh))). split; [symmetry; apply Permutation_rev|]. apply M. intros l Hl. cbn [translate_unary]. do 2 f_equal. unfold reverse_axes, permuted.
    pose proof (G l Hl) as [W _]. assert (R : forall A (d : A) v, length v = length sh -> pick (rev (seq 0 (length sh))) d v = rev v).
    { intros A d v Lv. unfold pick. rewrite map_rev, <- Lv. f_equal. apply map_nth_seq. }
    rewrite !R; auto; rewrite ?(proj1 W), Sh by auto; auto.
  - exists (seq 0 (length sh)). split; auto. apply M. intros l Hl. cbn [translate_unary]. do 2 f_equal. unfold permuted. pose proof (G l Hl) as [W _]. specialize (Sh l Hl).
    destruct l as [s t off]. cbn [l_shape l_stride l_offset] in *. destruct W as [W _]. cbn in W. subst s. f_equal; symmetry; unfold pick; [|rewrite <- W]; apply map_nth_seq.
  - set (k := pick_reference (map size_non_broadcast ls)). assert (Hk : In (nth k ls l0) ls). { apply nth_In. rewrite <- (map_length size_non_broadcast). apply pick_reference_bound. intro X. apply map_eq_nil in X. congruence. }
    destruct (greedy_keep_ok (nth k ls l0) (G _ Hk)) as (g & ax & f & E & P & _). rewrite E. cbn [bind snd]. unfold ndim in P. rewrite Sh in P by auto. exists ax. split; auto.
    apply M. intros l Hl. apply transpose_nat. unfold ndim. now rewrite Sh. Qed.

Lemma positions_row_ok k l : wf l -> nonneg l -> positions_row k l = Ok (addrs RowMajor l).
Proof. intros W N. unfold positions_row. destruct (iter_new_inv RowMajor k l W N) as (it & E & I & L & P). rewrite E. cbn [bind]. rewrite collect_ok by auto. cbn [il_order il_iter]. now rewrite P. Qed.
Lemma first_least_ext {T} (lt : T -> T -> bool) r r' s ix : (forall j, valid s j -> r j = r' j) -> first_least lt r s ix -> first_least lt r' s ix.
Proof. intros H (b & f & x & E & X & B & F). assert (V : forall j, In j (b ++ ix :: f) -> valid s j). { intros j Hj. rewrite <- E in Hj. now apply (in_enum RowMajor) in Hj. }
  exists b, f, x. split; auto. split; [rewrite <- H; auto; apply V, in_or_app; right; now left|]. split; intros j y Hj Hy.
  - apply (B j); auto. rewrite H; auto. apply V, in_or_app. now left.
  - apply (F j); auto. rewrite H; auto. apply V, in_or_app. right. now right. Qed.
Lemma fold_res_combine {A B I S} (f : S -> A * B -> res S) (g : I -> A) (h : I -> B) ixs : forall s, fold_res f (combine (map g ixs) (map h ixs)) s = fold_res (fun s i => f s (g i, h i)) ixs s.
Proof. intro s. rewrite combine_map. apply fold_res_map. Qed.
Lemma put_fold {I C} (pos : I -> Z) (w : I -> res C) ixs : forall c, (forall i, In i ixs -> 0 <= pos i < Z.of_nat (length c)) ->
  fold_res (fun c i => let* y := w i in zset c (pos i) y) ixs c = fold_res (modify pos (fun i _ => w i)) ixs c.
Proof. induction ixs as [|i r IH]; intros c H; auto. cbn [fold_res]. unfold modify at 1. destruct (proj1 (peek_inside c (pos i))) as (x & Hx); [apply H; now left|].
  rewrite (proj2 (zget_peek c (pos i) x) Hx). cbn [bind]. destruct (w i) as [y| |]; cbn [bind]; auto. destruct (zset_ok c (pos i) y) as (c' & E & L & _); [apply H; now left|]. rewrite E. cbn [bind]. apply IH. intros j Hj. rewrite L. apply H. now right. Qed.
Lemma sub_wf ax l : wf l -> size (l_shape l) <> 0%nat -> wf (sub ax l).
Proof. intros [W1 W2] S. split; cbn; [now rewrite !pick_length|auto]. Qed.

Lemma denotes_unique n axes ax ax' : Forall2 (axis_denotes n) axes ax -> Forall2 (axis_denotes n) axes ax' -> ax' = ax.
Proof. intro D. revert ax'. induction D as [|z k zs ks H D IH]; intros ax' D'; inversion D'; subst; auto. f_equal; auto. eapply axis_denotes_fun; eauto. Qed.
Section ArgAxes.
  Context {T : Type} (Val : T -> Prop) (lt eqb : T -> T -> bool) (WO : weak_order_on Val lt).
  (** what both axis versions do once the layouts are split, for any way [inner] of reducing one group *)
  Definition arg_axes_with (inner : Z -> layout -> res (list nat)) (dflt : order) (dio : iter_order) (laxes lrest : layout) : res (list (list nat) * layout * layout) :=
    let* lout := layout_for_array_copy Dyn dflt lrest dio in
    let* sw := translate_to_col_major dflt [lout; lrest] dio in
    match sw with
    | [lout_s; lrest_s] =>
      let* po := positions_row Dyn lout_s in
      let* pr := positions_row Dyn lrest_s in
      let* out := fold_res (fun out p => let* i := inner (snd p) (mkLayout (l_shape laxes) (l_stride laxes) (snd p)) in zset out (fst p) (Some i)) (combine po pr) (uninit (list nat) (Z.of_nat (l_size lout))) in
      let* out := assume_init out in
      Ok (out, laxes, lout)
    | _ => Panic
    end.
  Lemma arg_axes_tail inner dflt dio a la ax l1 l2 : good la -> inside la (length a) -> size (l_shape la) <> 0%nat ->
    (forall x, In x ax -> (x < ndim la)%nat) -> NoDup ax -> dio = OC \/ dio = OF \/ dio = OK ->
    l1 = sub ax la -> l2 = sub (axes_except (ndim la) ax) la -> good l1 -> good l2 ->
    (forall ix x, valid (l_shape la) ix -> elem a la ix = Some x -> Val x) ->
    (forall p lx, wf lx -> nonneg lx -> inside lx (length a) -> size (l_shape lx) <> 0%nat -> (forall ix x, valid (l_shape lx) ix -> elem a lx ix = Some x -> Val x) -> exists ix, inner p lx = Ok ix /\ first_least lt (elem a lx) (l_shape lx) ix) ->
    exists out lout, arg_axes_with inner dflt dio l1 l2 = Ok (out, l1, lout) /\
      l_shape lout = pick (axes_except (ndim la) ax) 0%nat (l_shape la) /\ good lout /\ inside lout (length out) /\
      length out = size (l_shape lout) /\
      forall mx, valid (l_shape lout) mx -> exists sx, elem out lout mx = Some sx /\
        first_least lt (fun sx => elem a la (merge (ndim la) ax sx mx)) (pick ax 0%nat (l_shape la)) sx.
  Proof. intros G I S0 B ND Hd E1 E2 G1 G2 HV Inner. pose proof G as (W & N & _). unfold arg_axes_with, l_size. set (rest := axes_except (ndim la) ax) in *.
    destruct (copy_layout_good Dyn dflt l2 dio G2) as (lout & Eo & Go & Oo & So & Jo & Co); [tauto|]. rewrite Eo. cbn [bind].
    destruct (joint_permuted dflt [lout; l2] dio (l_shape l2)) as (px & Pp & Ej); auto; [discriminate|]. rewrite Ej. cbn [map bind].
    assert (Wo : wf lout) by apply Go. assert (W2 : wf l2) by apply G2. assert (Po : Permutation px (seq 0 (ndim lout))) by (unfold ndim; now rewrite So).
    pose proof (permuted_renames px lout Po Wo) as Ro. pose proof (permuted_renames px l2 Pp W2) as R2.
    rewrite !positions_row_ok; [|now apply permuted_wf|eapply renames_nonneg; [exact R2|apply G2]|now apply permuted_wf|eapply renames_nonneg; [exact Ro|apply Go]]. cbn [bind].
    rewrite (renames_addrs _ _ _ _ Ro), (renames_addrs _ _ _ _ R2). cbn [permuted l_shape]. rewrite So. set (ixs := map _ (enum RowMajor (pick px 0%nat (l_shape l2)))).
    assert (Pi : Permutation ixs (row_major (l_shape l2))) by apply (renames_enum _ _ _ RowMajor RowMajor R2).
    rewrite fold_res_combine. cbn [fst snd].
    pose (w := fun mx => let* i := inner (addr l2 mx) (mkLayout (l_shape l1) (l_stride l1) (addr l2 mx)) in Ok (Some i)).
    assert (Read : forall mx, valid (l_shape l2) mx -> exists sx, w mx = Ok (Some sx) /\ first_least lt (fun sx => elem a la (merge (ndim la) ax sx mx)) (pick ax 0%nat (l_shape la)) sx).
    { intros mx Vm. set (lx := mkLayout (l_shape l1) (l_stride l1) (addr l2 mx)). assert (Lm : length mx = length rest) by (apply valid_length in Vm; rewrite E2 in Vm; cbn in Vm; now rewrite pick_length in Vm).
      assert (A : forall sx, valid (pick ax 0%nat (l_shape la)) sx -> addr lx sx = addr la (merge (ndim la) ax sx mx) /\ valid (l_shape la) (merge (ndim la) ax sx mx)).
      { intros sx Vs. assert (Ls : length sx = length ax) by (apply valid_length in Vs; now rewrite pick_length in Vs). split.
        - rewrite merge_addr by auto. unfold lx, addr at 1. cbn [l_offset l_stride]. now rewrite E1, E2.
        - apply merge_valid; auto. now rewrite E2 in Vm. }
      assert (Ix : inside lx (length a)). { intros sx Vs. cbn [lx l_shape] in Vs. rewrite E1 in Vs. destruct (A sx Vs) as [-> V]. now apply I. }
      destruct (Inner (addr l2 mx) lx) as (sx & Ex & F); auto.
      - split; cbn [lx l_shape l_stride l_offset]; [apply G1|]. intros _. now apply G2.
      - intros sx Vs. specialize (Ix sx Vs). lia.
      - cbn [lx l_shape]. rewrite E1. cbn [sub l_shape]. intro Z0. pose proof (size_perm _ _ (pick_perm (ax ++ rest) 0%nat (l_shape la) (except_perm _ _ ND B))) as X. rewrite pick_app, size_app, Z0 in X. lia.
      - intros sx x Vs Ex. cbn [lx l_shape] in Vs. rewrite E1 in Vs. destruct (A sx Vs) as [Ea V]. apply (HV _ x V). unfold elem in *. now rewrite <- Ea.
      - exists sx. unfold w. fold lx. rewrite Ex. split; auto. assert (Sx : l_shape lx = pick ax 0%nat (l_shape la)) by (cbn [lx l_shape]; now rewrite E1). rewrite Sx in F. eapply first_least_ext; [|exact F]. intros j Vj. unfold elem. now rewrite (proj1 (A j Vj)). }
    assert (Cl : covers lout (length (uninit (list nat) (Z.of_nat (size (l_shape l2)))))) by (rewrite uninit_length by lia; now rewrite Nat2Z.id).
    destruct (steps_write (uninit (list nat) (Z.of_nat (size (l_shape l2)))) lout w ixs) as (c' & Ec & Uc & Vc); [now apply covers_inside|now rewrite So|rewrite So; intros ix V; destruct (Read ix V) as (sx & -> & _); eauto|intros i j Vi Vj Eij; now rewrite (Jo i j Vi Vj Eij)|].
    erewrite (fold_res_ext _ (fun c mx => let* y := w mx in zset c (addr lout mx) y)); [rewrite put_fold; [rewrite Ec|]|].
    2:{ intros mx Hm. apply (Permutation_in _ Pi), (in_enum RowMajor) in Hm. rewrite <- So in Hm. now apply (covers_inside _ _ Cl) in Hm. }
    2:{ intros mx s Hm. unfold w. now rewrite bind_assoc. }
    cbn [bind]. destruct (fresh_result lout c' (fun mx sx => first_least lt (fun sx => elem a la (merge (ndim la) ax sx mx)) (pick ax 0%nat (l_shape la)) sx)) as (d & Ed & _ & Ld & Id & Vd); auto; [now rewrite (proj1 Uc)| |].
    - intros ix V. destruct (Vc ix V) as (y & Ey & Py). rewrite So in V. destruct (Read ix V) as (sx & Es & F). exists sx. rewrite Es in Ey. injection Ey as <-. auto.
    - rewrite Ed. cbn [bind]. exists d, lout. split; auto. split; [now rewrite So, E2|]. split; auto. split; auto. split; auto. rewrite Ld, (proj1 Uc), uninit_length, So by lia. lia. Qed.
  Lemma arg_axes_ok dflt dio k a la axes ax : (forall ix x, valid (l_shape la) ix -> elem a la ix = Some x -> Val x) -> good la -> inside la (length a) -> size (l_shape la) <> 0%nat ->
    Forall2 (axis_denotes (ndim la)) axes ax -> NoDup ax -> dio = OC \/ dio = OF \/ dio = OK ->
    exists out laxes lout, reduce_axes_unraveled_arg (arg_comp lt) (arg_eq eqb) dflt dio k a la axes = Ok (out, laxes, lout) /\
      l_shape laxes = pick ax 0%nat (l_shape la) /\ l_shape lout = pick (axes_except (ndim la) ax) 0%nat (l_shape la) /\ good lout /\ inside lout (length out) /\
      length out = size (l_shape lout) /\
      forall mx, valid (l_shape lout) mx -> exists sx, elem out lout mx = Some sx /\
        first_least lt (fun sx => elem a la (merge (ndim la) ax sx mx)) (pick ax 0%nat (l_shape la)) sx.
  Proof. intros HV G I S0 D ND Hd. pose proof (denotes_lt _ _ _ D) as B. pose proof G as (W & N & _). unfold reduce_axes_unraveled_arg, l_size.
    replace (0 <? size (l_shape la))%nat with true by lia. cbn [check bind].
    destruct (split_axes_total la axes ax G S0 D ND) as (l1 & l2 & E & G1 & G2). rewrite E. cbn [bind].
    destruct (split_axes_ok la axes l1 l2 W E) as (ax' & D' & ND' & E1 & E2 & _). pose proof (denotes_unique _ _ _ _ D D') as ->.
    destruct (arg_axes_tail (fun _ lx => reduce_all_unraveled_arg (arg_comp lt) (arg_eq eqb) Dyn a lx) dflt dio a la ax l1 l2) as (out & lout & Ex & R); auto.
    { intros p lx Wx Nx Ix Sx Hx. now apply (arg_all_ok Val). }
    exists out, l1, lout. split; [exact Ex|]. split; [now rewrite E1|exact R]. Qed.
  (** one summed axis with a non-negative stride: translating it to column-major order changes nothing *)
  Lemma translate_one dflt dio d t off : 0 <= t -> dio = OC \/ dio = OF \/ dio = OK -> translate_unary dflt (mkLayout [d] [t] off) dio = Ok (mkLayout [d] [t] off).
  Proof. intros Ht [->|[->| ->]]; try reflexivity. unfold translate_unary, greedy_layout, l_size. destruct (size (l_shape (mkLayout [d] [t] off)) =? 0)%nat; [reflexivity|].
    assert (F : greedy_flip (mkLayout [d] [t] off) = Ok (mkLayout [d] [t] off)).
    { unfold greedy_flip. cbn [ndim l_shape length seq fold_res nth l_stride]. now replace (t <? 0) with false by lia. }
    rewrite F. cbn [bind]. change (sort_by _ (seq 0 (ndim (mkLayout [d] [t] off)))) with [0%nat]. rewrite transpose_nat by reflexivity. reflexivity. Qed.
  Lemma arg_axes_rayon_ok switch tr dflt dio k a la axes ax : (forall ix x, valid (l_shape la) ix -> elem a la ix = Some x -> Val x) -> good la -> inside la (length a) -> size (l_shape la) <> 0%nat ->
    Forall2 (axis_denotes (ndim la)) axes [ax] -> 0 <= nth ax (l_stride la) 0 -> dio = OC \/ dio = OF \/ dio = OK ->
    exists out laxes lout, reduce_axes_unraveled_arg_rayon (arg_comp lt) (arg_eq eqb) switch tr dflt dio k a la axes = Ok (out, laxes, lout) /\
      l_shape laxes = pick [ax] 0%nat (l_shape la) /\ l_shape lout = pick (axes_except (ndim la) [ax]) 0%nat (l_shape la) /\ good lout /\ inside lout (length out) /\
      length out = size (l_shape lout) /\
      forall mx, valid (l_shape lout) mx -> exists sx, elem out lout mx = Some sx /\
        first_least lt (fun sx => elem a la (merge (ndim la) [ax] sx mx)) (pick [ax] 0%nat (l_shape la)) sx.
  Proof. intros HV G I S0 D Ht Hd. assert (ND : NoDup [ax]) by (constructor; [easy|constructor]). unfold reduce_axes_unraveled_arg_rayon.
    destruct (l_size la <? switch)%nat; [now apply arg_axes_ok|].
    pose proof (denotes_lt _ _ _ D) as B. pose proof G as (W & N & _).
    destruct (split_axes_total la axes [ax] G S0 D ND) as (l1 & l2 & E & G1 & G2). rewrite E. cbn [bind].
    destruct (split_axes_ok la axes l1 l2 W E) as (ax' & D' & ND' & E1 & E2 & _). pose proof (denotes_unique _ _ _ _ D D') as ->.
    assert (Tr : translate_unary dflt l1 dio = Ok l1) by (rewrite E1; now apply translate_one). rewrite Tr. cbn [bind].
    destruct (arg_axes_tail (fun p lx => reduce_all_unraveled_arg_rayon (arg_comp lt) (arg_eq eqb) switch (tr p) Dyn a lx) dflt dio a la [ax] l1 l2) as (out & lout & Ex & R); auto.
    { intros p lx Wx Nx Ix Sx Hx. now apply (arg_all_rayon_ok Val). }
    exists out, l1, lout. split; [exact Ex|]. split; [now rewrite E1|exact R]. Qed.
End ArgAxes.

(** ** ravelled results *)
Lemma ravel_ok o k s ix : valid s ix -> exists r, nth_error (enum o s) r = Some ix /\ ravel o k s ix = Z.of_nat r.
Proof. intro V. apply (in_enum o) in V. apply In_nth_error in V as (r & E). exists r. split; auto.
  unfold ravel. assert (X : nth_error (addrs o (new_contig k s 0 o)) r = Some (addr (new_contig k s 0 o) ix)).
  { unfold addrs. replace (l_shape (new_contig k s 0 o)) with s by now destruct o. now apply map_nth_error. }
  rewrite contig_addrs in X. unfold consecutive in X. assert (Hr : (r < size s)%nat) by (rewrite <- (enum_length o); apply nth_error_Some; congruence).
  rewrite (map_nth_error _ r (seq 0 (size s)) (d := r)) in X. { injection X as X. rewrite index_uncheck_addr, <- X. lia. }
  rewrite (nth_error_nth' _ 0%nat) by now rewrite seq_length. now rewrite seq_nth. Qed.
