(** Bounds, strides, contiguity, indexing: proofs about M_Layout. *)
From Verif Require Import Base Spec P_Index P_List M_Layout P_Layout.
Local Open Scope Z_scope.

Lemma as_usize_nonneg z : 0 <= z -> as_usize z = z.
Proof. unfold as_usize. destruct (Z.ltb_spec z 0); lia. Qed.

(** ** bounds_index *)
Definition lo_part (sh : list nat) (st : list Z) : Z := dot (map (fun t => Z.min t 0) st) (last_ix sh).
Definition hi_part (sh : list nat) (st : list Z) : Z := dot (map (fun t => Z.max t 0) st) (last_ix sh).

Lemma bounds_loop_spec sh st mn mx : length st = length sh ->
  bounds_loop sh st mn mx = Ok (if (size sh =? 0)%nat then None else Some (mn + lo_part sh st, mx + hi_part sh st)).
Proof. revert st mn mx; induction sh as [|d sh IH]; intros [|t st] mn mx H; try discriminate.
  - cbn. do 3 f_equal; lia.
  - cbn [bounds_loop]. rewrite size_cons. destruct (Nat.eqb_spec d 0) as [->|Hd]; [reflexivity|].
    cbn in H. rewrite !IH by lia. replace (d * size sh =? 0)%nat with (size sh =? 0)%nat by (symmetry; destruct (Nat.eqb_spec (size sh) 0); [apply Nat.eqb_eq|apply Nat.eqb_neq]; nia).
    unfold lo_part, hi_part. cbn [map last_ix dot].
    unfold last_ix. assert (Z.of_nat (d - 1) = Z.of_nat d - 1) as -> by lia.
    destruct (Z.gtb_spec t 0); destruct (size sh =? 0)%nat; auto; do 3 f_equal; nia. Qed.

Lemma dot_between st sh ix : length st = length sh -> valid sh ix -> lo_part sh st <= dot st ix <= hi_part sh st.
Proof. unfold lo_part, hi_part. revert sh ix; induction st as [|t st IH]; intros sh ix H Hv.
  - cbn. lia.
  - destruct sh as [|d sh]; [discriminate|]. apply valid_cons_inv in Hv. destruct Hv as (i & r & -> & Hi & Hr).
    cbn in H. specialize (IH sh r ltac:(lia) Hr). cbn [map last_ix dot]. unfold last_ix in IH. nia. Qed.
(** the corner with the smallest / largest position *)
Definition lo_ix (sh : list nat) (st : list Z) : list nat := map (fun p => if snd p <? 0 then (fst p - 1)%nat else 0%nat) (combine sh st).
Definition hi_ix (sh : list nat) (st : list Z) : list nat := map (fun p => if snd p <? 0 then 0%nat else (fst p - 1)%nat) (combine sh st).
Lemma lo_ix_spec sh st : length st = length sh -> size sh <> 0%nat -> valid sh (lo_ix sh st) /\ dot st (lo_ix sh st) = lo_part sh st.
Proof. intros Hl Hs. apply size_pos_forall in Hs. unfold lo_part, lo_ix. revert st Hl; induction Hs as [|d sh Hd Hs IH]; intros [|t st] Hl; try discriminate.
  - cbn. split; [constructor|auto].
  - cbn in Hl. destruct (IH st ltac:(lia)) as [Hv Hdot]. cbn [combine map last_ix dot fst snd]. split.
    + constructor; auto. destruct (t <? 0); lia.
    + rewrite Hdot. unfold last_ix. destruct (Z.ltb_spec t 0); lia. Qed.
Lemma hi_ix_spec sh st : length st = length sh -> size sh <> 0%nat -> valid sh (hi_ix sh st) /\ dot st (hi_ix sh st) = hi_part sh st.
Proof. intros Hl Hs. apply size_pos_forall in Hs. unfold hi_part, hi_ix. revert st Hl; induction Hs as [|d sh Hd Hs IH]; intros [|t st] Hl; try discriminate.
  - cbn. split; [constructor|auto].
  - cbn in Hl. destruct (IH st ltac:(lia)) as [Hv Hdot]. cbn [combine map last_ix dot fst snd]. split.
    + constructor; auto. destruct (t <? 0); lia.
    + rewrite Hdot. unfold last_ix. destruct (Z.ltb_spec t 0); lia. Qed.

Lemma bounds_index_eq l : length (l_stride l) = length (l_shape l) ->
  bounds_index l =
    if (size (l_shape l) =? 0)%nat then Ok (as_usize (l_offset l), as_usize (l_offset l))
    else if (ndim l =? 0)%nat then Ok (as_usize (l_offset l), as_usize (l_offset l) + 1)
    else if 0 <=? l_offset l + lo_part (l_shape l) (l_stride l)
    then Ok (l_offset l + lo_part (l_shape l) (l_stride l), l_offset l + hi_part (l_shape l) (l_stride l) + 1)
    else Err ValueOutOfRange.
Proof. intro Hl. unfold bounds_index, ndim. destruct (l_shape l) as [|d sh] eqn:E.
  - reflexivity.
  - cbn [length Nat.eqb]. rewrite bounds_loop_spec by auto. cbn [bind].
    destruct (size (d :: sh) =? 0)%nat; reflexivity. Qed.

Lemma bounds_index_nopanic l : length (l_stride l) = length (l_shape l) -> bounds_index l <> Panic.
Proof. intro H. rewrite bounds_index_eq by auto. repeat match goal with |- context [if ?c then _ else _] => destruct c end; discriminate. Qed.

Lemma bounds_index_sound l lo hi : wf l -> bounds_index l = Ok (lo, hi) ->
  (size (l_shape l) <> 0%nat -> 0 <= lo) /\ (forall ix, valid (l_shape l) ix -> lo <= addr l ix < hi) /\
  (size (l_shape l) = 0%nat -> lo = hi) /\
  (size (l_shape l) <> 0%nat ->
    (exists ix, valid (l_shape l) ix /\ addr l ix = lo) /\ (exists ix, valid (l_shape l) ix /\ addr l ix = hi - 1)).
Proof. intros [Hl Ho] H. rewrite bounds_index_eq in H by auto.
  destruct (Nat.eqb_spec (size (l_shape l)) 0) as [E|E]; [|specialize (Ho E); rewrite as_usize_nonneg in H by auto].
  - injection H as <- <-. split; [congruence|]. split; [|split; [auto|congruence]]. intros ix Hv. exfalso. now apply valid_size_pos in Hv.
  - destruct (Nat.eqb_spec (ndim l) 0) as [E0|E0].
    + injection H as <- <-. unfold ndim in E0. destruct (l_shape l); [|discriminate].
      assert (A : addr l [] = l_offset l) by (unfold addr; rewrite dot_nil_r; lia).
      split; [auto|]. split; [|split; [tauto|]].
      * intros ix Hv. apply valid_nil in Hv. subst. lia.
      * intros _. split; exists []; (split; [constructor|lia]).
    + destruct (Z.leb_spec 0 (l_offset l + lo_part (l_shape l) (l_stride l))); [|discriminate].
      injection H as <- <-. split; [auto|]. split; [|split; [tauto|]].
      * intros ix Hv. pose proof (dot_between _ _ _ Hl Hv). unfold addr. lia.
      * intros _. unfold addr. split; [exists (lo_ix (l_shape l) (l_stride l))|exists (hi_ix (l_shape l) (l_stride l))].
        destruct (lo_ix_spec _ _ Hl E). split; auto; lia.
        destruct (hi_ix_spec _ _ Hl E). split; auto; lia. Qed.
Lemma bounds_index_err l : wf l -> (exists e, bounds_index l = Err e) <-> (exists ix, valid (l_shape l) ix /\ addr l ix < 0).
Proof. intros [Hl Ho]. rewrite bounds_index_eq by auto.
  destruct (Nat.eqb_spec (size (l_shape l)) 0) as [E|E]; [|specialize (Ho E); rewrite as_usize_nonneg by auto].
  - split; [intros (e & H); discriminate|]. intros (ix & Hv & _). exfalso. eapply valid_size_pos; eauto.
  - destruct (Nat.eqb_spec (ndim l) 0) as [E0|E0].
    + split; [intros (e & H); discriminate|]. intros (ix & Hv & Ha). unfold ndim in E0.
      destruct (l_shape l); [|discriminate]. apply valid_nil in Hv. subst. unfold addr in Ha. rewrite dot_nil_r in Ha. lia.
    + destruct (Z.leb_spec 0 (l_offset l + lo_part (l_shape l) (l_stride l))).
      * split; [intros (e & H1); discriminate|]. intros (ix & Hv & Ha). pose proof (dot_between _ _ _ Hl Hv). unfold addr in Ha. lia.
      * split; eauto. intros _. destruct (lo_ix_spec _ _ Hl E). eexists; split; eauto. unfold addr. lia. Qed.
Lemma bounds_index_ok_iff l : wf l -> (exists b, bounds_index l = Ok b) <-> nonneg l.
Proof. intros Hw. split.
  - intros ([lo hi] & H) ix Hv. destruct (bounds_index_sound _ _ _ Hw H) as (H0 & H1 & _). specialize (H1 ix Hv). apply valid_size_pos in Hv. specialize (H0 Hv). lia.
  - intro H. destruct (bounds_index l) as [b|e|] eqn:E; eauto.
    + destruct (proj1 (bounds_index_err l Hw)) as (ix & Hv & Ha); eauto. specialize (H ix Hv). lia.
    + exfalso. eapply bounds_index_nopanic; eauto. apply Hw. Qed.

(** ** index_f *)
Lemma index_loop_spec ix sh st pos r : length ix = length sh -> length st = length sh ->
  index_loop ix sh st pos = Ok r <->
  exists kx, Forall2 (fun id k => index_denotes (fst id) (snd id) k) (combine ix sh) kx /\ r = pos + dot st kx.
Proof. revert sh st pos; induction ix as [|i ix IH]; intros [|d sh] [|t st] pos H1 H2; try discriminate.
  - cbn. split; [intro H; injection H as <-; exists []; split; [constructor|lia]|].
    intros (kx & Hf & ->). inversion Hf; subst. f_equal. lia.
  - cbn in H1, H2. cbn [index_loop combine].
    set (i' := if i <? 0 then i + Z.of_nat d else i).
    destruct ((0 <=? i') && (i' <? Z.of_nat d)) eqn:E.
    + rewrite IH by lia. split.
      * intros (kx & Hf & ->). exists (Z.to_nat i' :: kx). split; [|cbn [dot]; rewrite Z2Nat.id by lia; lia].
        constructor; auto. unfold index_denotes, axis_denotes, i' in *. cbn. destruct (Z.ltb_spec i 0); lia.
      * intros (kx & Hf & ->). inversion Hf as [|? k ? kr Hk Hr]; subst. exists kr. split; auto.
        unfold index_denotes, axis_denotes in Hk. cbn [fst snd] in Hk. cbn [dot].
        replace (Z.of_nat k) with i' by (unfold i' in *; destruct (Z.ltb_spec i 0); lia). lia.
    + split; [discriminate|]. intros (kx & Hf & _). inversion Hf as [|? k ? kr Hk Hr]; subst.
      unfold index_denotes, axis_denotes, i' in *. cbn in Hk. destruct (Z.ltb_spec i 0); lia. Qed.
Lemma index_loop_nopanic ix sh st pos : index_loop ix sh st pos <> Panic.
Proof. revert sh st pos; induction ix as [|i ix IH]; intros [|d sh] [|t st] pos; cbn [index_loop]; try discriminate.
  match goal with |- context [if ?c then index_loop _ _ _ _ else _] => destruct c end; [apply IH|discriminate]. Qed.

Lemma denote_valid ix sh kx : length ix = length sh ->
  Forall2 (fun id k => index_denotes (fst id) (snd id) k) (combine ix sh) kx -> valid sh kx.
Proof. revert sh kx; induction ix as [|i ix IH]; intros [|d sh] kx Hl Hf; try discriminate; inversion Hf; subst; [constructor|].
  constructor; [apply H1|]. apply IH; cbn in *; auto. Qed.

Lemma index_f_spec l ix r : wf l -> nonneg l ->
  index_f l ix = Ok r <->
  exists kx, length ix = ndim l /\ Forall2 (fun id k => index_denotes (fst id) (snd id) k) (combine ix (l_shape l)) kx /\
    r = addr l kx.
Proof. intros [Hl Ho] Hn. unfold index_f, ndim. destruct (Nat.eqb_spec (length ix) (length (l_shape l))) as [E|E]; cbn [negb].
  - split.
    + intro H. apply bind_ok in H. destruct H as (p & Hp & H). apply index_loop_spec in Hp; auto.
      destruct Hp as (kx & Hf & ->). exists kx. repeat split; auto. unfold addr.
      destruct (0 <=? _); congruence.
    + intros (kx & _ & Hf & ->). assert (P : index_loop ix (l_shape l) (l_stride l) (l_offset l) = Ok (addr l kx)).
      { apply index_loop_spec; auto. exists kx; auto. }
      rewrite P. cbn. destruct (Z.leb_spec 0 (addr l kx)); auto.
      specialize (Hn kx (denote_valid _ _ _ E Hf)). lia.
  - split; [discriminate|]. intros (kx & H & _). lia. Qed.
Lemma index_f_nopanic l ix : index_f l ix <> Panic.
Proof. unfold index_f. destruct (negb _); [discriminate|].
  pose proof (index_loop_nopanic ix (l_shape l) (l_stride l) (l_offset l)).
  destruct (index_loop _ _ _ _); cbn; try congruence. destruct (0 <=? a); discriminate. Qed.
Lemma index_f_natural l ix : wf l -> nonneg l -> valid (l_shape l) ix ->
  index_f l (map Z.of_nat ix) = Ok (addr l ix).
Proof. intros Hw Hn Hv. apply index_f_spec; auto. exists ix. rewrite map_length. split; [now apply valid_length|]. split; auto.
  clear Hw Hn. induction Hv; cbn; constructor; auto. cbn. unfold index_denotes, axis_denotes. lia. Qed.

(** ** check_strides *)
Definition tri : Type := (nat * Z * Z)%type.   (* extent, stride, index difference *)
Definition tsum (q : list tri) : Z := zsum (map (fun x => snd (fst x) * snd x) q).
Definition tok (x : tri) : Prop := Z.abs (snd x) <= Z.of_nat (fst (fst x)) - 1.
Lemma strides_loop_sound q b cum :
  Forall tok q -> Z.abs b <= cum ->
  strides_loop (map (fun x => (fst (fst x), Z.abs (snd (fst x)))) q) true cum = Ok tt ->
  b + tsum q = 0 -> b = 0 /\ Forall (fun x => snd (fst x) = 0 \/ snd x = 0) q.
Proof. revert b cum; induction q as [|[[d t] e] q IH]; intros b cum Hq Hb Hs H0.
  - cbn in H0. split; [lia|constructor].
  - inversion Hq as [|? ? Hx Hq']; subst. unfold tok in Hx; cbn [fst snd] in Hx.
    cbn [map strides_loop fst snd] in Hs. unfold tsum in H0, IH. cbn [map zsum fold_right fst snd] in H0.
    rewrite andb_true_r in Hs. destruct (Z.eqb_spec (Z.abs t) 0) as [E|E].
    + assert (t = 0) by lia. subst t. destruct (IH b cum) as [H1 H2]; auto.
    + destruct (Z.ltb_spec cum (Z.abs t)) as [Hc|Hc]; [|discriminate].
      destruct (IH (b + t * e) (cum + (Z.of_nat d - 1) * Z.abs t)) as [H1 H2]; try (unfold zsum in *; first [assumption | nia | lia]).
      assert (e = 0 /\ b = 0). { assert (Hz : e = 0 \/ 1 <= Z.abs e) by lia. destruct Hz as [->|Hz]; [lia|exfalso; nia]. }
      split; [lia|]. constructor; [right; cbn; lia|auto]. Qed.

Lemma tsum_perm p q : Permutation p q -> tsum p = tsum q.
Proof. intro H. unfold tsum. apply zsum_perm. now apply Permutation_map. Qed.
Lemma tsum_filter q : Forall (fun x => 0 <= Z.of_nat (fst (fst x)) - 1 /\ tok x) q ->
  tsum (filter (fun x => (1 <? fst (fst x))%nat) q) = tsum q.
Proof. induction 1 as [|[[d t] e] q [Hd Hx] Hq IH]; [reflexivity|]. cbn [filter fst snd].
  unfold tok in Hx. cbn [fst snd] in *.
  destruct (Nat.ltb_spec 1 d); unfold tsum in *; cbn [map zsum fold_right fst snd] in *; unfold zsum in *; [lia|].
  rewrite IH. assert (e = 0) by lia. subst. lia. Qed.
Lemma filter_map_comm {A B} (f : A -> B) p l : filter p (map f l) = map f (filter (fun x => p (f x)) l).
Proof. induction l; cbn; auto. destruct (p (f a)); cbn; congruence. Qed.

Fixpoint tzip (sh : list nat) (st : list Z) (i j : list nat) : list tri :=
  match sh, st, i, j with
  | d :: sh', t :: st', a :: i', b :: j' => (d, t, Z.of_nat a - Z.of_nat b) :: tzip sh' st' i' j'
  | _, _, _, _ => []
  end.
Lemma tzip_facts sh st i j : length st = length sh -> valid sh i -> valid sh j ->
  map fst (tzip sh st i j) = combine sh st /\ tsum (tzip sh st i j) = dot st i - dot st j /\
  Forall (fun x => 0 <= Z.of_nat (fst (fst x)) - 1 /\ tok x) (tzip sh st i j) /\
  (forall P : nat -> Z -> Z -> Prop, Forall (fun x => P (fst (fst x)) (snd (fst x)) (snd x)) (tzip sh st i j) ->
     forall k, (k < length sh)%nat -> P (nth k sh 0%nat) (nth k st 0) (Z.of_nat (nth k i 0%nat) - Z.of_nat (nth k j 0%nat))).
Proof. revert st i j; induction sh as [|d sh IH]; intros [|t st] i j Hl Hi Hj; try discriminate.
  - cbn. apply valid_nil in Hi, Hj. subst. cbn. repeat split; auto. intros; lia.
  - apply valid_cons_inv in Hi, Hj. destruct Hi as (a & i' & -> & Ha & Hi), Hj as (b & j' & -> & Hb & Hj).
    cbn in Hl. destruct (IH st i' j' ltac:(lia) Hi Hj) as (H1 & H2 & H3 & H4).
    cbn [tzip map combine dot fst]. repeat split.
    + now rewrite H1.
    + unfold tsum in *. cbn [map zsum fold_right fst snd]. unfold zsum in *. lia.
    + constructor; auto. unfold tok. cbn. lia.
    + intros P HP k Hk. inversion HP; subst. destruct k; [auto|]. cbn [nth]. apply H4; auto. cbn in Hk; lia. Qed.

Lemma check_strides_sound l i j : wf l -> check_strides l true = Ok tt ->
  valid (l_shape l) i -> valid (l_shape l) j -> addr l i = addr l j ->
  forall k, (k < ndim l)%nat -> nth k (l_stride l) 0 = 0 \/ nth k i 0%nat = nth k j 0%nat.
Proof. intros [Hl Ho] Hc Hi Hj Ha k Hk. unfold check_strides in Hc.
  destruct (negb _); [discriminate|]. unfold ndim, l_size in *.
  pose proof (valid_size_pos _ _ Hi). replace (size (l_shape l) =? 0)%nat with false in Hc by lia.
  replace (length (l_shape l) =? 0)%nat with false in Hc by lia. cbn [orb] in Hc.
  destruct (tzip_facts (l_shape l) (l_stride l) i j Hl Hi Hj) as (H1 & H2 & H3 & H4).
  set (q := tzip (l_shape l) (l_stride l) i j) in *.
  pose proof (tsum_filter q H3) as H5. set (q1 := filter (fun x : nat * Z * Z => (1 <? fst (fst x))%nat) q) in H5.
  assert (Hp : Permutation (sort_by (fun a b => Z.abs (snd a) <=? Z.abs (snd b))
       (filter (fun p => (1 <? fst p)%nat) (combine (l_shape l) (l_stride l)))) (map fst q1)).
  { rewrite <- sort_perm. rewrite <- H1, filter_map_comm. apply Permutation_refl. }
  apply Permutation_map_inv in Hp. destruct Hp as (q2 & Eq & Hp2).
  unfold sorted_axes in Hc. rewrite Eq, map_map in Hc.
  assert (Ft : Forall tok q2).
  { apply (Permutation_Forall Hp2). apply Forall_forall. intros x Hx. apply filter_In in Hx.
    rewrite Forall_forall in H3. apply H3. apply Hx. }
  destruct (strides_loop_sound q2 0 0 Ft ltac:(lia) Hc) as [_ F].
  { rewrite <- (tsum_perm _ _ Hp2), H5, H2. unfold addr in Ha. lia. }
  assert (Fq : Forall (fun x => (fun (d : nat) t e => t = 0 \/ e = 0) (fst (fst x)) (snd (fst x)) (snd x)) q).
  { apply Forall_forall. intros x Hx. rewrite Forall_forall in F, H3.
    destruct (Nat.ltb_spec 1 (fst (fst x))) as [Hd|Hd].
    - apply F. apply (Permutation_in x Hp2). apply filter_In. split; auto. now apply Nat.ltb_lt.
    - right. destruct (H3 x Hx) as [Hx1 Hx2]. unfold tok in Hx2. lia. }
  specialize (H4 _ Fq k Hk). cbn in H4. destruct H4; [now left|right; lia]. Qed.

Lemma layout_new_ok sh st off l : (size sh <> 0%nat -> 0 <= off) -> layout_new sh st off = Ok l ->
  l = mkLayout sh st off /\ wf l /\ nonneg l /\ check_strides l true = Ok tt.
Proof. intros Ho H. unfold layout_new in H. apply bind_ok in H. destruct H as (b & Hb & H).
  apply bind_ok in H. destruct H as (u & Hu & H). injection H as <-. destruct u.
  assert (Hw : wf (mkLayout sh st off)).
  { split; auto. unfold check_strides in Hu. destruct (Nat.eqb_spec (length (l_shape (mkLayout sh st off))) (length (l_stride (mkLayout sh st off)))); auto. discriminate. }
  split; [auto|]. split; [auto|]. split; auto. apply bounds_index_ok_iff; eauto. Qed.

(** ** contiguity *)
Lemma contig_loop_ge p acc k : (k <= contig_loop p acc k)%nat.
Proof. revert acc k; induction p as [|[s d] p IH]; intros acc k; cbn; [lia|].
  destruct (negb _ && negb _); [lia|]. specialize (IH (acc * Z.of_nat d) (S k)). lia. Qed.
Lemma contig_loop_le p acc k : (contig_loop p acc k <= k + length p)%nat.
Proof. revert acc k; induction p as [|[s d] p IH]; intros acc k; cbn; [lia|].
  destruct (negb _ && negb _); [lia|]. specialize (IH (acc * Z.of_nat d) (S k)). lia. Qed.
Lemma contig_loop_iff sh st acc k : length st = length sh -> Forall (fun d => (0 < d)%nat) sh ->
  contig_loop (combine st sh) acc k = (k + length sh)%nat <->
  (forall ix, valid sh ix -> dot st ix = acc * Z.of_nat (rav_f sh ix)).
Proof. intros Hl Hp. revert st acc k Hl; induction Hp as [|d sh Hd Hp IH]; intros [|t st] acc k Hl; try discriminate.
  - cbn. split; intro; [|lia]. intros. destruct ix; cbn; lia.
  - cbn in Hl. cbn [combine contig_loop length]. apply size_pos_forall in Hp.
    destruct (negb (d =? 1)%nat && negb (t =? acc)) eqn:E.
    + split; [lia|]. intro H. exfalso.
      specialize (H (1%nat :: repeat 0%nat (length sh))). cbn [dot rav_f] in H. rewrite dot_zeros in H.
      assert (R : rav_f sh (repeat 0%nat (length sh)) = 0%nat).
      { clear. induction sh; cbn; auto. rewrite IHsh. lia. }
      rewrite R in H. assert (valid (d :: sh) (1%nat :: repeat 0%nat (length sh))).
      { constructor; [lia|now apply valid_zeros]. }
      specialize (H H0). lia.
    + replace (k + S (length sh))%nat with (S k + length sh)%nat by lia. rewrite IH by lia. split.
      * intros H ix Hv. apply valid_cons_inv in Hv. destruct Hv as (i & r & -> & Hi & Hr).
        cbn [dot rav_f]. rewrite (H r Hr). rewrite Nat2Z.inj_add, Nat2Z.inj_mul.
        assert (Hdt : d = 1%nat \/ t = acc) by lia. destruct Hdt; [assert (i = 0%nat) by lia|]; subst; ring.
      * intros H r Hr. specialize (H (0%nat :: r)). cbn [dot rav_f] in H.
        assert (valid (d :: sh) (0%nat :: r)) by (constructor; auto). specialize (H H0). nia. Qed.

Lemma map_addr_consecutive l (f : list nat -> nat) L :
  map f L = seq 0 (length L) ->
  (map (addr l) L = consecutive (l_offset l) (length L) <-> forall ix, In ix L -> dot (l_stride l) ix = Z.of_nat (f ix)).
Proof. intro Hf. unfold consecutive. rewrite <- Hf, map_map. split.
  - intros H ix Hi. assert (G : addr l ix = l_offset l + Z.of_nat (f ix)).
    { clear Hf. induction L; [easy|]. cbn in H. injection H as H1 H2. destruct Hi as [->|Hi]; auto. }
    unfold addr in G. lia.
  - intro H. apply map_ext_in. intros ix Hi. unfold addr. rewrite (H ix Hi). reflexivity. Qed.

Lemma f_contig_iff l : wf l -> size (l_shape l) <> 0%nat ->
  f_contig l = true <-> map (addr l) (col_major (l_shape l)) = consecutive (l_offset l) (size (l_shape l)).
Proof. intros [Hl Ho] Hs. rewrite <- (length_col_major (l_shape l)).
  rewrite map_addr_consecutive with (f := rav_f (l_shape l)) by (rewrite length_col_major; apply map_rav_f_col_major).
  unfold f_contig, ndim_of_f_contig, l_size, ndim. replace (size (l_shape l) =? 0)%nat with false by lia. rewrite orb_false_r.
  destruct (Nat.eqb_spec (length (l_shape l)) 0) as [E|E].
  - rewrite E. split; [|reflexivity]. intros _ ix Hi. apply in_col_major in Hi. destruct (l_shape l); [|discriminate].
    apply valid_nil in Hi. subst. rewrite dot_nil_r. reflexivity.
  - apply size_pos_forall in Hs. pose proof (contig_loop_iff _ _ 1 0%nat Hl Hs) as C. rewrite Nat.add_0_l in C.
    rewrite Nat.eqb_eq. split; intro H.
    + intros ix Hi. apply in_col_major in Hi. symmetry in H. pose proof (proj1 C H ix Hi). lia.
    + symmetry. apply C. intros ix Hi. apply in_col_major in Hi. rewrite H by auto. lia. Qed.

Lemma c_contig_reverse l : wf l -> c_contig l = f_contig (reverse_axes l).
Proof. intros [Hl _]. unfold c_contig, f_contig, ndim_of_c_contig, ndim_of_f_contig, ndim, l_size, reverse_axes. cbn.
  now rewrite rev_length, size_rev, combine_rev. Qed.
Lemma reverse_wf l : wf l -> wf (reverse_axes l).
Proof. intros [H1 H2]. split; cbn [reverse_axes l_shape l_stride l_offset]. now rewrite !rev_length. now rewrite size_rev. Qed.
Lemma c_contig_iff l : wf l -> size (l_shape l) <> 0%nat ->
  c_contig l = true <-> map (addr l) (row_major (l_shape l)) = consecutive (l_offset l) (size (l_shape l)).
Proof. intros Hw Hs. rewrite c_contig_reverse by auto.
  rewrite f_contig_iff by (auto using reverse_wf; cbn; now rewrite size_rev). cbn. rewrite size_rev.
  rewrite row_major_rev, map_map. match goal with |- ?a = _ <-> ?b = _ => replace a with b; [reflexivity|] end.
  apply map_ext_in. intros ix Hi. apply in_col_major in Hi.
  apply valid_rev in Hi. rewrite rev_involutive in Hi.
  destruct (reverse_axes_elems l (rev ix) Hw Hi) as [_ E]. now rewrite rev_involutive in E. Qed.


(** the numbers of leading (trailing) axes that are contiguous *)
Lemma contig_loop_prefix p acc k m : (m <= length p)%nat -> (k + m <= contig_loop p acc k)%nat <-> contig_loop (firstn m p) acc k = (k + m)%nat.
Proof. revert acc k m; induction p as [|[s d] p IH]; intros acc k m H; cbn [length firstn contig_loop] in *.
  - replace m with 0%nat by lia. cbn. lia.
  - destruct m as [|m]; [cbn; pose proof (contig_loop_ge ((s,d)::p) acc k); cbn in *; lia|]. cbn [firstn contig_loop].
    destruct (negb _ && negb _); [lia|]. specialize (IH (acc * Z.of_nat d) (S k) m ltac:(lia)).
    replace (k + S m)%nat with (S k + m)%nat by lia. exact IH. Qed.
