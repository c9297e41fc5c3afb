From Verif Require Import Base Spec Spec_Matmul P_Index P_List M_Layout P_Layout P_Bounds P_Contig P_Strides M_Indexer P_Indexer M_Broadcast P_Broadcast Q_Broadcast M_Rearr P_Rearr P_BinOp M_Iter P_Iter M_Kernel P_Kernel Q_Kernel M_Tensor P_Tensor Q_Tensor M_Matmul P_Matmul.
Local Open Scope Z_scope.

(** ** splitting off the trailing axes *)
Definition head_of (l : layout) (k : nat) : layout := mkLayout (firstn k (l_shape l)) (firstn k (l_stride l)) (l_offset l).
Definition tail_of (l : layout) (k : nat) : layout := mkLayout (skipn k (l_shape l)) (skipn k (l_stride l)) (l_offset l).
Lemma split_tail l B T (n : Z) : l_shape l = B ++ T -> n = Z.of_nat (length T) -> 0 < n -> dim_split_at l (- n) = Ok (head_of l (length B), tail_of l (length B)).
Proof. intros S E P. unfold dim_split_at, ndim. rewrite S, app_length. replace (- n <? 0) with true by lia. replace (Z.of_nat (length B + length T) + - n) with (Z.of_nat (length B)) by lia.
  replace (negb _) with false by lia. rewrite Nat2Z.id. unfold head_of, tail_of. now rewrite S. Qed.
Lemma head_shape l B T : l_shape l = B ++ T -> l_shape (head_of l (length B)) = B.
Proof. intro S. cbn. rewrite S. rewrite firstn_app, Nat.sub_diag, firstn_all; cbn; apply app_nil_r. Qed.
Lemma tail_shape l B T : l_shape l = B ++ T -> l_shape (tail_of l (length B)) = T.
Proof. intro S. cbn. rewrite S, skipn_app, Nat.sub_diag, skipn_all. reflexivity. Qed.
Lemma addr_split l B T bx y : wf l -> l_shape l = B ++ T -> length bx = length B -> addr (at_offset (tail_of l (length B)) (addr (head_of l (length B)) bx)) y = addr l (bx ++ y).
Proof. intros [L _] S Lb. unfold addr, at_offset. cbn. rewrite <- (firstn_skipn (length B) (l_stride l)) at 3. rewrite dot_app; [lia|]. rewrite firstn_length, L, S, app_length. lia. Qed.
Lemma dot_nonneg st ix : Forall (fun t => 0 <= t) st -> 0 <= dot st ix.
Proof. intro H. revert ix. induction H as [|t st Ht H IH]; intro ix; [cbn; lia|]. destruct ix as [|i ix]; [cbn; lia|]. cbn [dot]. specialize (IH ix). nia. Qed.
Lemma in_firstn {T} (x : T) n l : In x (firstn n l) -> In x l.
Proof. revert l; induction n; intros [|y l]; cbn; intuition. Qed.
Lemma head_safe l B T : wf l -> nonneg l -> anchored l -> l_shape l = B ++ T -> wf (head_of l (length B)) /\ nonneg (head_of l (length B)).
Proof. intros W N An S. assert (LS : length (l_stride (head_of l (length B))) = length (l_shape (head_of l (length B)))). { rewrite (head_shape _ _ _ S). cbn. rewrite firstn_length. destruct W as [-> _]. rewrite S, app_length. lia. }
  destruct (Nat.eq_dec (size (l_shape l)) 0) as [E|E].
  - destruct (An E) as (O & F). split. { split; auto. } intros ix _. unfold addr. cbn. assert (0 <= dot (firstn (length B) (l_stride l)) ix); [|lia]. apply dot_nonneg. rewrite Forall_forall in *. intros t Ht. apply F. eapply in_firstn; eauto.
  - assert (Z0 : forall ix, valid B ix -> 0 <= addr (head_of l (length B)) ix).
    { intros ix V. assert (V' : valid (l_shape l) (ix ++ repeat 0%nat (length T))). { rewrite S. apply valid_app. - now apply valid_length in V. - split; auto. apply valid_zeros. rewrite S, size_app in E. lia. }
      specialize (N _ V'). rewrite <- (addr_split l B T) in N; auto; [|now apply valid_length in V]. unfold addr in N at 1. cbn in N. rewrite dot_zeros in N. lia. }
    split. + split; auto. intros _. cbn. now apply W. + intros ix V. apply Z0. now rewrite (head_shape _ _ _ S) in V. Qed.
Lemma broadcasts_into o a b c : broadcasts o a b c -> broadcasts o c a c.
Proof. intros [L H]. split; [lia|]. intro k. specialize (H k). cbn in *. lia. Qed.
Lemma broadcasts_nil o b : broadcasts o [] b b.
Proof. split; [reflexivity|]. intro k. cbn. right. left. split; auto. unfold ext. destruct o; cbn; now destruct k. Qed.

(** the batch layout of an operand, broadcast to the batch shape of the result *)
Lemma rest_broadcast rc r BC BA : l_shape rc = BC -> l_shape r = BA -> wf rc -> wf r -> nonneg r -> broadcasts RowMajor BC BA BC ->
  exists p, broadcast_layout_to_first Dyn rc r RowMajor = Ok p /\ l_shape (snd p) = BC /\ wf (snd p) /\ nonneg (snd p) /\
    forall bx, valid BC bx -> valid BA (source_index RowMajor BA bx) /\ addr (snd p) bx = addr r (source_index RowMajor BA bx).
Proof. intros S1 S2 W1 W2 N B. unfold broadcast_layout_to_first. pose proof (l_broadcast_layout RowMajor rc r W1 W2) as H. rewrite S1, S2 in H.
  destruct (broadcast_layout rc r RowMajor) as [[r1 r2]|e|]; cbn [bind]; [|now apply H in B|easy]. exists (r1, r2). split; [auto|]. cbn [snd].
  destruct H as (s & Bs & Q1 & Q2 & Q3 & Q4 & F). assert (s = BC) as -> by (eapply broadcasts_fun; eauto). split; [auto|]. split; [auto|]. split.
  - intros ix V. rewrite Q2 in V. destruct (F ix V) as (_ & _ & V2 & ->). apply N. now rewrite S2.
  - intros bx V. destruct (F bx V) as (_ & _ & V2 & E). auto. Qed.

(** the six layouts of a stack of products: batch layouts of a, b, c and matrix layouts of a, b, c *)
Definition plan (la lb lc : layout) : res (layout * layout * layout * layout * layout * layout) :=
  let* cfg := layout_matmul_with_lc la lb lc in
  let* _ := check ((ndim (mm_la cfg) =? 2) && (ndim (mm_lb cfg) =? 2) && (ndim (mm_lc_matmul cfg) =? 2))%nat InvalidLayout in
  let* ra := unwrap_opt (mm_la_rest cfg) in
  let* rb := unwrap_opt (mm_lb_rest cfg) in
  let* rc := unwrap_opt (mm_lc_rest cfg) in
  Ok (ra, rb, rc, mm_la cfg, mm_lb cfg, mm_lc_matmul cfg).
(** the positions of the matrices are those of the elements [cell bx m n], [ia bx m k], [ib bx k n]; the matrices of accepted operands are accepted *)
Record stack (o : order) (lc la lb ra rb rc lam lbm lcm : layout) (BC : list nat) (M K N : nat) (cell ia ib : list nat -> nat -> nat -> list nat) : Prop := {
  st_wa : wf ra; st_na : nonneg ra; st_wb : wf rb; st_nb : nonneg rb; st_wc : wf rc; st_nc : nonneg rc; st_sa : l_shape ra = BC; st_sb : l_shape rb = BC; st_sc : l_shape rc = BC;
  st_mc : l_shape lcm = [M; N]; st_ma : l_shape lam = [M; K]; st_mb : l_shape lbm = [K; N];
  st_pc : forall bx m n, valid BC bx -> (m < M)%nat -> (n < N)%nat -> valid (l_shape lc) (cell bx m n) /\ addr (at_offset lcm (addr rc bx)) [m; n] = addr lc (cell bx m n);
  st_pa : forall bx m k, valid BC bx -> (m < M)%nat -> (k < K)%nat -> valid (l_shape la) (ia bx m k) /\ addr (at_offset lam (addr ra bx)) [m; k] = addr la (ia bx m k);
  st_pb : forall bx k n, valid BC bx -> (k < K)%nat -> (n < N)%nat -> valid (l_shape lb) (ib bx k n) /\ addr (at_offset lbm (addr rb bx)) [k; n] = addr lb (ib bx k n);
  st_cov : forall cx, valid (l_shape lc) cx -> exists bx m n, valid BC bx /\ (m < M)%nat /\ (n < N)%nat /\ cx = cell bx m n;
  st_inj : forall bx m n bx' m' n', valid BC bx -> valid BC bx' -> (m < M)%nat -> (n < N)%nat -> (m' < M)%nat -> (n' < N)%nat -> cell bx m n = cell bx' m' n' -> bx = bx' /\ m = m' /\ n = n';
  st_ct : forall bx m n, valid BC bx -> (m < M)%nat -> (n < N)%nat -> contracts o (l_shape la) (l_shape lb) (cell bx m n) (map (fun k => (ia bx m k, ib bx k n)) (seq 0 K));
  st_gc : good lc -> forall bx, valid BC bx -> good (at_offset lcm (addr rc bx));
  st_ga : good la -> forall bx, valid BC bx -> good (at_offset lam (addr ra bx));
  st_gb : good lb -> forall bx, valid BC bx -> good (at_offset lbm (addr rb bx)) }.
Lemma tail_good l B T bx : good l -> l_shape l = B ++ T -> valid B bx -> good (at_offset (tail_of l (length B)) (addr (head_of l (length B)) bx)).
Proof. intros G S V. pose proof (valid_length _ _ V) as LV. pose proof (good_wf _ G) as W. destruct W as [L O]. apply good_intro; cbn [at_offset tail_of l_shape l_stride].
  - rewrite !skipn_length. lia.
  - intro NE. assert (TS : skipn (length B) (l_shape l) = T) by (rewrite S, skipn_app, Nat.sub_diag, skipn_all; reflexivity). rewrite TS in NE. assert (SB : size B <> 0%nat) by (now apply valid_size_pos in V).
    assert (NE' : size (l_shape l) <> 0%nat) by (rewrite S, size_app; lia). destruct (good_elim l G NE') as (_ & _ & NN & CH). split.
    + intros ix Vx. cbn [at_offset l_shape tail_of] in Vx. rewrite TS in Vx. rewrite (addr_split l B T) by (auto; now split). apply NN. rewrite S. now apply valid_app.
    + rewrite S in CH. rewrite <- (firstn_skipn (length B) (l_stride l)) in CH. rewrite combine_app in CH. 2:{ rewrite firstn_length, L, S, app_length. lia. } rewrite TS. now apply chk_app_r in CH. Qed.

Section Batched.
  Context {A B C : Type} (mab : A -> B -> C) (add mul : C -> C -> C) (a : list A) (b : list B) (c : list C) (alpha beta : C).
  Context (Ent : C -> list C -> C -> Prop) (HE : forall z vs, Ent z vs (fold_left (fun v p => add (mul alpha p) v) vs (mul beta z))).
  Context (G : list C -> layout -> layout -> layout -> res (list C)) (sched : list (list Z) -> list (list Z)) (PERM : forall l, Permutation (sched l) l).

  Lemma batched_dispatch (ra rb rc lam lbm lcm : layout) BC : wf ra -> nonneg ra -> wf rb -> nonneg rb -> wf rc -> nonneg rc -> l_shape ra = BC -> l_shape rb = BC -> l_shape rc = BC ->
    exists bxs, Permutation bxs (col_major BC) /\
    (let* pss := map_res (dispatch_positions Dyn) [ra; rb; rc] in fold_res (fun c p => match p with
      | [ia; ib; ic] => G c (at_offset lcm ic) (at_offset lam ia) (at_offset lbm ib)
      | _ => Panic end) (sched (zip_all pss)) c)
    = fold_res (fun c bx => G c (at_offset lcm (addr rc bx)) (at_offset lam (addr ra bx)) (at_offset lbm (addr rb bx))) bxs c.
  Proof. intros W1 N1 W2 N2 W3 N3 S1 S2 S3. cbn [map_res]. rewrite !dispatch_ok by auto. cbn [bind]. unfold addrs. rewrite S1, S2, S3. cbn [enum].
    change [map (addr ra) (col_major BC); map (addr rb) (col_major BC); map (addr rc) (col_major BC)] with (map (fun l => map (addr l) (col_major BC)) [ra; rb; rc]).
    rewrite (zip_all_map addr) by discriminate. match goal with |- context [sched ?l] => destruct (Permutation_map_inv _ _ (PERM l)) as (bxs & E & P) end.
    exists bxs. split; [now symmetry|]. rewrite E. now rewrite fold_res_map. Qed.

  (** a batched product computes the product, in whatever order the batches are worked on, by a kernel that agrees with the serial one *)
  Lemma batched_product_by o (lc la lb ra rb rc lam lbm lcm : layout) BC M K N (cell ia ib : list nat -> nat -> nat -> list nat) :
    inside lc (length c) -> injective lc -> inside la (length a) -> inside lb (length b) -> stack o lc la lb ra rb rc lam lbm lcm BC M K N cell ia ib ->
    (forall c0 bx, length c0 = length c -> valid BC bx -> G c0 (at_offset lcm (addr rc bx)) (at_offset lam (addr ra bx)) (at_offset lbm (addr rb bx)) =
       gemm mab mul add c0 (at_offset lcm (addr rc bx)) a (at_offset lam (addr ra bx)) b (at_offset lbm (addr rb bx)) alpha beta) ->
    exists c', (let* pss := map_res (dispatch_positions Dyn) [ra; rb; rc] in fold_res (fun c p => match p with
      | [ia; ib; ic] => G c (at_offset lcm ic) (at_offset lam ia) (at_offset lbm ib)
      | _ => Panic end) (sched (zip_all pss)) c) = Ok c' /\ is_product_by o mab Ent a la b lb c lc c'.
  Proof. intros Ic Jc Ia Ib [W1 N1 W2 N2 W3 N3 S1 S2 S3 Sc Sa Sb HC HA HB COV INJ CT _ _ _] HG. destruct (batched_dispatch ra rb rc lam lbm lcm BC) as (bxs & PB & ->); auto.
    assert (IB : forall bx, In bx bxs <-> valid BC bx). { intro bx. rewrite <- (in_enum ColMajor). split; apply Permutation_in; auto. now symmetry. }
    assert (RNG : forall x m n, In x bxs -> (m < M)%nat -> (n < N)%nat -> 0 <= addr (at_offset lcm (addr rc x)) [m; n] < Z.of_nat (length c)). { intros x m n Hx Hm Hn. apply IB in Hx. destruct (HC x m n) as (V & ->); auto. }
    assert (RA : forall x m k, In x bxs -> (m < M)%nat -> (k < K)%nat -> (N <> 0)%nat -> 0 <= addr (at_offset lam (addr ra x)) [m; k] < Z.of_nat (length a)). { intros x m k Hx Hm Hk _. apply IB in Hx. destruct (HA x m k) as (V & ->); auto. }
    assert (RB : forall x k n, In x bxs -> (M <> 0)%nat -> (k < K)%nat -> (n < N)%nat -> 0 <= addr (at_offset lbm (addr rb x)) [k; n] < Z.of_nat (length b)). { intros x k n Hx _ Hk Hn. apply IB in Hx. destruct (HB x k n) as (V & ->); auto. }
    assert (DJ : forall x y m n m' n', In x bxs -> In y bxs -> (m < M)%nat -> (n < N)%nat -> (m' < M)%nat -> (n' < N)%nat -> addr (at_offset lcm (addr rc x)) [m; n] = addr (at_offset lcm (addr rc y)) [m'; n'] -> x = y /\ m = m' /\ n = n').
    { intros x y m n m' n' Hx Hy Hm Hn Hm' Hn' E. apply IB in Hx, Hy. destruct (HC x m n) as (V & E1); auto. destruct (HC y m' n') as (V' & E2); auto. rewrite E1, E2 in E. apply Jc in E; auto. }
    destruct (batch_exact mab add mul a b alpha beta (fun x y => if list_eq_dec Nat.eq_dec x y then true else false)
      (fun bx => at_offset lam (addr ra bx)) (fun bx => at_offset lbm (addr rb bx)) (fun bx => at_offset lcm (addr rc bx)) bxs M K N c) as (c' & E0 & L & V & U); auto.
    - intros x y. destruct (list_eq_dec Nat.eq_dec x y); split; auto; discriminate.
    - eapply Permutation_NoDup; [symmetry; exact PB|]. apply (enum_nodup ColMajor).
    - assert (EG : forall xs c0, (forall x, In x xs -> In x bxs) -> length c0 = length c ->
        fold_res (fun c bx => G c (at_offset lcm (addr rc bx)) (at_offset lam (addr ra bx)) (at_offset lbm (addr rb bx))) xs c0 =
        fold_res (fun c x => gemm mab mul add c (at_offset lcm (addr rc x)) a (at_offset lam (addr ra x)) b (at_offset lbm (addr rb x)) alpha beta) xs c0).
      { induction xs as [|x xs IH]; intros c0 Hx L0; cbn [fold_res]; auto. rewrite HG by (auto; apply IB, Hx; now left).
        destruct (batch_exact mab add mul a b alpha beta (fun _ _ : unit => true) (fun _ => at_offset lam (addr ra x)) (fun _ => at_offset lbm (addr rb x)) (fun _ => at_offset lcm (addr rc x)) [tt] M K N c0) as (c1 & E1 & L1 & _); auto; try rewrite L0.
        - intros [] []; tauto. - repeat constructor; auto. - intros _ m n _. apply RNG. apply Hx. now left. - intros _ m n _. apply RA. apply Hx. now left. - intros _ m n _. apply RB. apply Hx. now left.
        - intros [] [] m n m' n' _ _ H1 H2 H3 H4 E1. split; auto. apply (DJ x x); auto; apply Hx; now left.
        - cbn [fold_res] in E1. destruct (gemm mab mul add c0 (at_offset lcm (addr rc x)) a (at_offset lam (addr ra x)) b (at_offset lbm (addr rb x)) alpha beta) as [c2| |]; try discriminate. cbn [bind] in *. injection E1 as ->. apply IH; [|congruence]. intros y Hy. apply Hx. now right. }
      rewrite EG, E0 by auto. exists c'. split; [auto|]. split.
      + split; auto. intros p Hp. apply U. intros x m n Hx Hm Hn. apply IB in Hx. destruct (HC x m n) as (V' & ->); auto.
      + intros cx Vc. destruct (COV cx Vc) as (bx & m & n & Vb & Hm & Hn & ->). destruct (V bx m n) as (z & vs & Hz & F & R); auto. { now apply IB. }
        destruct (HC bx m n) as (_ & EC); auto. rewrite EC in Hz, R. exists (map (fun k => (ia bx m k, ib bx k n)) (seq 0 K)), vs, z, (fold_left (fun v p => add (mul alpha p) v) vs (mul beta z)). split; [auto|]. split; [|split; [auto|split; [exact R|apply HE]]].
        clear R. unfold products. assert (KS : forall k, In k (seq 0 K) -> (k < K)%nat) by (intros k Hk; apply in_seq in Hk; lia). revert F KS. generalize (seq 0 K). intros ks F. induction F as [|k v ks vs' (u & w & Hu & Hw & ->) F IH]; intro KS; cbn [map]; constructor.
        * assert (Hk : (k < K)%nat) by (apply KS; now left). destruct (HA bx m k) as (_ & EA); auto. destruct (HB bx k n) as (_ & EB); auto. rewrite EA in Hu. rewrite EB in Hw. exists u, w. auto.
        * apply IH. intros; apply KS; now right. Qed.
End Batched.
(** over a commutative semiring *)
Lemma product_by {A B C} o (mab : A -> B -> C) zero add mul alpha beta a la b lb c lc (c' : list C) :
  is_product_by o mab (fun z vs v => v = add (mul beta z) (mul alpha (total zero add vs))) a la b lb c lc c' -> is_product o mab zero add mul alpha beta a la b lb c lc c'.
Proof. intros [U H]. split; [exact U|]. intros cx V. destruct (H cx V) as (ts & vs & z & v & H1 & H2 & H3 & H4 & ->). exists ts, vs, z. auto. Qed.
Lemma batched_product {A B C : Type} (mab : A -> B -> C) (zero : C) (add mul : C -> C -> C) (SR : comm_semiring zero add mul) (a : list A) (b : list B) (c : list C) (alpha beta : C)
    (G : list C -> layout -> layout -> layout -> res (list C)) (sched : list (list Z) -> list (list Z)) (PERM : forall l, Permutation (sched l) l) o (lc la lb ra rb rc lam lbm lcm : layout) BC M K N (cell ia ib : list nat -> nat -> nat -> list nat) :
    inside lc (length c) -> injective lc -> inside la (length a) -> inside lb (length b) -> stack o lc la lb ra rb rc lam lbm lcm BC M K N cell ia ib ->
    (forall c0 bx, length c0 = length c -> valid BC bx -> G c0 (at_offset lcm (addr rc bx)) (at_offset lam (addr ra bx)) (at_offset lbm (addr rb bx)) =
       gemm mab mul add c0 (at_offset lcm (addr rc bx)) a (at_offset lam (addr ra bx)) b (at_offset lbm (addr rb bx)) alpha beta) ->
    exists c', (let* pss := map_res (dispatch_positions Dyn) [ra; rb; rc] in fold_res (fun c p => match p with
      | [ia; ib; ic] => G c (at_offset lcm ic) (at_offset lam ia) (at_offset lbm ib)
      | _ => Panic end) (sched (zip_all pss)) c) = Ok c' /\ is_product o mab zero add mul alpha beta a la b lb c lc c'.
Proof. intros Ic Jc Ia Ib ST HG. destruct (batched_product_by mab add mul a b c alpha beta (fun z vs v => v = add (mul beta z) (mul alpha (total zero add vs))) (fun z vs => accum_total zero add mul SR alpha vs (mul beta z))
    G sched PERM o lc la lb ra rb rc lam lbm lcm BC M K N cell ia ib Ic Jc Ia Ib ST HG) as (c' & E & P). exists c'. split; [exact E|]. now apply product_by. Qed.
