(** The theorems about cdist *)
From Verif Require Import Base Spec Spec_Blas Spec_Dist P_List P_Index P_Contig M_Layout M_Kernel M_Tensor M_Rearr M_Matmul M_Blas Spec_BlasApi P_Layout P_Strides P_Kernel P_Iter P_Tensor P_Tri3 P_Rearr Q_Copy P_Fast P_Blas M_Dist P_Dist.
Local Open Scope Z_scope.

Lemma gives_ext {T} (r : res (tensor T)) o m n V V' : gives r o m n V -> (forall i j, (i < m)%nat -> (j < n)%nat -> V i j = V' i j) -> gives r o m n V'.
Proof. intros (t & E & Tk & L & C & (Sh & H)) Q. exists t. repeat (split; auto). intros i j Hi Hj. rewrite <- Q by auto. auto. Qed.
Lemma l_cdist : forall (T W P S O : Type) (M : metric T W P S O) zero one add of_size sigma size_t dev (a b : tensor T) (w : option (tensor W)) m n k A B ws,
  given one a b w m n k A B ws -> size_t <> 0%nat -> schedule sigma -> m_fits M k k = true ->
  gives (cdist M zero one add of_size sigma size_t dev a b w) dev m n (fun i j =>
    let u := row k A i in let v := row k B j in let pu := m_stat M ws u in let pv := m_stat M ws v in
    m_finish M pu pv (total zero add of_size w k ws) (fold_left (fun s x => m_step M pu pv s (fst (fst x)) (snd (fst x)) (snd x)) (triples u v ws) (m_start M))).
Proof. intros T W P S O M zero one add of_size sigma size_t dev a b w m n k A B ws (Ta & Tb & Ha & Hb & Hk & Hw) Hs Sg Fit.
  destruct (cdist_ok M zero one add of_size sigma size_t dev a b m n k A B w ws Ta Tb Ha Hb Hk Hs Sg Fit Hw) as (t & E & Tt & L & El & H). exists t. split; auto. split; auto. split; auto. split.
  - rewrite El, contig_addrs. f_equal. unfold size. cbn. lia.
  - destruct H as (Sh & H). split; auto. intros i j Hi Hj. rewrite (H i j Hi Hj). unfold value, total, sum_list, accumulate. now destruct w. Qed.
Lemma same_table {T} (t t' : tensor T) o m n V : gives (Ok t) o m n V -> gives (Ok t') o m n V -> t_layout t = t_layout t' -> t = t'.
Proof. intros (t0 & E & Tk & L & C & (Sh & H)) (t1 & E' & Tk' & L' & C' & (Sh' & H')) El. injection E as <-. injection E' as <-. destruct t as [d l], t' as [d' l']. cbn in *. subst l'. f_equal. apply peek_ext; [congruence|]. intro p.
  destruct (Z_lt_le_dec p 0) as [N|N]; [unfold peek; now replace (p <? 0) with true by lia|]. destruct (Z_lt_le_dec p (Z.of_nat (m * n))) as [I|I].
  - assert (Hp : In p (addrs o l)) by (rewrite C; apply in_consecutive; lia). apply in_map_iff in Hp as (ix & <- & Hx). apply in_enum in Hx. rewrite Sh in Hx. apply valid_pair in Hx as (i & j & -> & Hi & Hj). specialize (H i j Hi Hj). specialize (H' i j Hi Hj). unfold elem in *. congruence.
  - unfold peek. replace (p <? 0) with false by lia. transitivity (@None T); [apply nth_error_None; lia|symmetry; apply nth_error_None; lia]. Qed.
Lemma l_cdist_schedule : forall (T W P S O : Type) (M : metric T W P S O) zero one add of_size size_t dev (a b : tensor T) (w : option (tensor W)) m n k A B ws r,
  given one a b w m n k A B ws -> size_t <> 0%nat -> m_fits M k k = true -> cdist_rayon M zero one add of_size size_t dev a b w r -> r = cdist_serial M zero one add of_size size_t dev a b w.
Proof. intros T W P S O M zero one add of_size size_t dev a b w m n k A B ws r (Ta & Tb & Ha & Hb & Hk & Hw) Hs Fit (sigma & Sg & ->).
  destruct (cdist_ok M zero one add of_size sigma size_t dev a b m n k A B w ws Ta Tb Ha Hb Hk Hs Sg Fit Hw) as (t & E & Tt & L & El & H). 
  destruct (cdist_ok M zero one add of_size (fun cells => cells) size_t dev a b m n k A B w ws Ta Tb Ha Hb Hk Hs (fun c => Permutation_refl c) Fit Hw) as (t' & E' & Tt' & L' & El' & H').
  unfold cdist_serial. rewrite E, E'. f_equal. assert (C : addrs dev (new_contig Fixed [m; n] 0 dev) = consecutive 0 (m * n)) by (rewrite contig_addrs; f_equal; unfold size; cbn; lia).
  eapply (same_table t t' dev m n); [exists t|exists t'|congruence].
  - split; [reflexivity|]. split; [exact Tt|]. split; [exact L|]. split; [rewrite El; exact C|exact H].
  - split; [reflexivity|]. split; [exact Tt'|]. split; [exact L'|]. split; [rewrite El'; exact C|exact H']. Qed.
Lemma l_cdist_rejects : forall (T W P S O : Type) (M : metric T W P S O) zero one add of_size sigma size_t dev (a b : tensor T) (w : option (tensor W)),
  (ndim (t_layout a) <> 2%nat \/ ndim (t_layout b) <> 2%nat \/ w = None /\ nth 1 (l_shape (t_layout a)) 0%nat <> nth 1 (l_shape (t_layout b)) 0%nat \/ (exists x, w = Some x /\ ndim (t_layout x) <> 1%nat)) ->
  cdist M zero one add of_size sigma size_t dev a b w = Err InvalidLayout.
Proof. intros T W P S O M zero one add of_size sigma size_t dev a b w H. unfold cdist. destruct (Nat.eqb_spec (ndim (t_layout a)) 2) as [Ea|Ea]; [|reflexivity]. destruct (Nat.eqb_spec (ndim (t_layout b)) 2) as [Eb|Eb]; [|reflexivity]. cbn [check bind].
  destruct H as [H|[H|[(-> & H)|(x & -> & H)]]]; try congruence.
  - cbn [bind]. unfold cdist_cells, extent. apply Nat.eqb_neq in H. rewrite H. reflexivity.
  - apply Nat.eqb_neq in H. rewrite H. reflexivity. Qed.
(** ** symmetry *)
Lemma swap_fold {T W P S O} (M : metric T W P S O) (R : S -> S -> Prop) p q : (forall p q s s' u v w, R s s' -> R (m_step M p q s u v w) (m_step M q p s' v u w)) -> forall (u v : list T) (ws : list W) s s', R s s' ->
  R (fold_left (fun s x => m_step M p q s (fst (fst x)) (snd (fst x)) (snd x)) (triples u v ws) s) (fold_left (fun s x => m_step M q p s (fst (fst x)) (snd (fst x)) (snd x)) (triples v u ws) s').
Proof. intro H. unfold triples. induction u as [|x u IH]; intros [|y v] [|w ws] s s' Rs; cbn [combine fold_left]; auto; try (destruct v; exact Rs); try (destruct u; exact Rs). Qed.
Lemma l_cdist_symmetric : forall (T W P S O : Type) (M : metric T W P S O) zero one add of_size size_t dev (a b : tensor T) (w : option (tensor W)) m n k A B ws t t' (R : S -> S -> Prop),
  given one a b w m n k A B ws -> size_t <> 0%nat -> m_fits M k k = true ->
  R (m_start M) (m_start M) -> (forall p q s s' u v w, R s s' -> R (m_step M p q s u v w) (m_step M q p s' v u w)) -> (forall p q wt s s', R s s' -> m_finish M p q wt s = m_finish M q p wt s') ->
  cdist_serial M zero one add of_size size_t dev a b w = Ok t -> cdist_serial M zero one add of_size size_t dev b a w = Ok t' ->
  forall i j, (i < m)%nat -> (j < n)%nat -> at_ t [i; j] = at_ t' [j; i].
Proof. intros T W P S O M zero one add of_size size_t dev a b w m n k A B ws t t' R G Hs Fit R0 Rs Rf E E' i j Hi Hj.
  assert (G' : given one b a w n m k B A ws) by (destruct G as (Ta & Tb & Ha & Hb & Hk & Hw); repeat (split; auto)).
  destruct (l_cdist T W P S O M zero one add of_size (fun c => c) size_t dev a b w m n k A B ws G Hs (fun c => Permutation_refl c) Fit) as (t0 & E0 & _ & _ & _ & _ & H0).
  destruct (l_cdist T W P S O M zero one add of_size (fun c => c) size_t dev b a w n m k B A ws G' Hs (fun c => Permutation_refl c) Fit) as (t1 & E1 & _ & _ & _ & _ & H1).
  unfold cdist_serial in E, E'. assert (t0 = t) by congruence. assert (t1 = t') by congruence. subst t0 t1. unfold at_. rewrite (H0 i j Hi Hj), (H1 j i Hj Hi). cbv zeta. f_equal. apply Rf. apply (swap_fold M R); auto. Qed.
(** ** formulas *)
Lemma fold_pair {A S1 S2} (f : S1 -> A -> S1) (g : S2 -> A -> S2) l : forall s1 s2, fold_left (fun s x => (f (fst s) x, g (snd s) x)) l (s1, s2) = (fold_left f l s1, fold_left g l s2).
Proof. induction l as [|x l IH]; intros s1 s2; cbn; auto. Qed.
Lemma fold_ext {A S} (f g : S -> A -> S) l : (forall s x, f s x = g s x) -> forall s, fold_left f l s = fold_left g l s.
Proof. intro H. induction l as [|x l IH]; intro s; cbn; auto. rewrite H. auto. Qed.
Lemma fold_map {A B S} (f : S -> B -> S) (g : A -> B) l : forall s, fold_left f (map g l) s = fold_left (fun s x => f s (g x)) l s.
Proof. induction l as [|x l IH]; intro s; cbn; auto. Qed.
Lemma fold_filter {A B S} (f : S -> B -> S) (p : A -> bool) (g : A -> B) l : forall s, fold_left f (map g (filter p l)) s = fold_left (fun s x => if p x then f s (g x) else s) l s.
Proof. induction l as [|x l IH]; intro s; cbn; auto. destruct (p x); cbn; auto. Qed.
Lemma amount_fold {T R} (zero : R) add (p : T -> T -> bool) u v ws : amount zero add p u v ws = fold_left (fun s x => if p (fst (fst x)) (snd (fst x)) then add s (snd x) else s) (triples u v ws) zero.
Proof. unfold amount, sum_list. apply fold_filter. Qed.

Lemma l_cdist_sums : forall (T R : Type) (zero one : R) (add mul div : R -> R -> R) (subt : T -> T -> T) (abs square : T -> R) (sqrt : R -> R) (powf : R -> R -> R) (p : R) of_size sigma size_t dev (a b : tensor T) (w : option (tensor R)) m n k A B ws,
  given one a b w m n k A B ws -> size_t <> 0%nat -> schedule sigma ->
  let wx := weighted w in
  let sum f i j := sum_over_pairs zero add (fun x y c => if wx then mul c (f x y) else f x y) (row k A i) (row k B j) ws in
  gives (cdist (euclidean zero add mul subt wx square sqrt) zero one add of_size sigma size_t dev a b w) dev m n (fun i j => sqrt (sum (fun x y => square (subt x y)) i j)) /\
  gives (cdist (sq_euclidean zero add mul subt wx square) zero one add of_size sigma size_t dev a b w) dev m n (fun i j => sum (fun x y => square (subt x y)) i j) /\
  gives (cdist (city_block zero add mul subt abs wx) zero one add of_size sigma size_t dev a b w) dev m n (fun i j => sum (fun x y => abs (subt x y)) i j) /\
  gives (cdist (minkowski zero one add mul div subt abs wx powf p) zero one add of_size sigma size_t dev a b w) dev m n (fun i j => powf (sum (fun x y => powf (abs (subt x y)) p) i j) (div one p)).
Proof. intros T R zero one add mul div subt abs square sqrt powf p of_size sigma size_t dev a b w m n k A B ws G Hs Sg wx sum.
  assert (K : forall term final, gives (cdist (sum_metric zero add mul wx term final) zero one add of_size sigma size_t dev a b w) dev m n (fun i j => final (sum term i j))).
  { intros term final. eapply gives_ext; [apply (l_cdist _ _ _ _ _ (sum_metric zero add mul wx term final) zero one add of_size sigma size_t dev a b w m n k A B ws G Hs Sg eq_refl)|]. intros i j _ _. cbn. f_equal. unfold sum, sum_over_pairs, sum_list. rewrite fold_map. apply fold_ext. reflexivity. }
  split; [|split; [|split]]; [apply (K _ sqrt)|apply (K _ (fun s => s))|apply (K _ (fun s => s))|apply (K _ (fun s => powf s (div one p)))]. Qed.
Lemma l_cdist_ratios : forall (T R : Type) (zero one : R) (add mul div max : R -> R -> R) (is_zero : R -> bool) (subt addt : T -> T -> T) (abs : T -> R) (eqt : T -> T -> bool) of_size sigma size_t dev (a b : tensor T) (w : option (tensor R)) m n k A B ws,
  given one a b w m n k A B ws -> size_t <> 0%nat -> schedule sigma ->
  let wx := weighted w in
  let weight c x := if wx then mul c x else x in
  gives (cdist (canberra zero add mul div is_zero subt abs wx) zero one add of_size sigma size_t dev a b w) dev m n (fun i j =>
    sum_list zero add (map (fun x => let '(u, v, c) := x in div (weight c (abs (subt u v))) (add (abs u) (abs v))) (filter (fun x => negb (is_zero (add (abs (fst (fst x))) (abs (snd (fst x)))))) (triples (row k A i) (row k B j) ws)))) /\
  gives (cdist (chebyshev zero max is_zero subt abs wx) zero one add of_size sigma size_t dev a b w) dev m n (fun i j =>
    greatest zero max (map (fun x => abs (subt (fst (fst x)) (snd (fst x)))) (filter (fun x => negb (wx && is_zero (snd x))) (triples (row k A i) (row k B j) ws)))) /\
  gives (cdist (bray_curtis zero add mul div subt addt abs wx) zero one add of_size sigma size_t dev a b w) dev m n (fun i j =>
    div (sum_over_pairs zero add (fun x y c => weight c (abs (subt x y))) (row k A i) (row k B j) ws) (sum_over_pairs zero add (fun x y c => weight c (abs (addt x y))) (row k A i) (row k B j) ws)) /\
  gives (cdist (hamming zero add div eqt) zero one add of_size sigma size_t dev a b w) dev m n (fun i j =>
    div (amount zero add (fun x y => negb (eqt x y)) (row k A i) (row k B j) ws) (total zero add of_size w k ws)).
Proof. intros T R zero one add mul div max is_zero subt addt abs eqt of_size sigma size_t dev a b w m n k A B ws G Hs Sg wx weight.
  split; [|split; [|split]]; (eapply gives_ext; [eapply (l_cdist _ _ _ _ _ _ zero one add of_size sigma size_t dev a b w m n k A B ws G Hs Sg); reflexivity|]); intros i j _ _; cbn [m_finish m_stat m_step m_start canberra chebyshev bray_curtis hamming no_stat]; cbv zeta.
  - unfold sum_list. rewrite fold_filter. apply fold_ext. intros s ((x, y), c). cbn. now destruct (is_zero _).
  - unfold greatest. rewrite fold_filter. apply fold_ext. intros s ((x, y), c). cbn. now destruct (wx && is_zero c).
  - unfold sum_over_pairs, sum_list. rewrite !fold_map. rewrite (fold_pair (fun s x => add s (weigh mul wx (snd x) (abs (subt (fst (fst x)) (snd (fst x)))))) (fun s x => add s (weigh mul wx (snd x) (abs (addt (fst (fst x)) (snd (fst x))))))). reflexivity.
  - rewrite amount_fold. f_equal. apply fold_ext. intros s ((x, y), c). cbn. now destruct (eqt x y). Qed.
Lemma l_cdist_booleans : forall (R : Type) (zero one two : R) (add sub mul div : R -> R -> R) (is_zero : R -> bool) of_size sigma size_t dev (a b : tensor bool) (w : option (tensor R)) m n k A B ws,
  given one a b w m n k A B ws -> size_t <> 0%nat -> schedule sigma ->
  let both i j := amount zero add (fun x y => x && y) (row k A i) (row k B j) ws in
  let neither i j := amount zero add (fun x y => negb x && negb y) (row k A i) (row k B j) ws in
  let first i j := amount zero add (fun x y => x && negb y) (row k A i) (row k B j) ws in
  let second i j := amount zero add (fun x y => negb x && y) (row k A i) (row k B j) ws in
  let differ i j := amount zero add (fun x y => xorb x y) (row k A i) (row k B j) ws in
  let either i j := amount zero add (fun x y => x || y) (row k A i) (row k B j) ws in
  let all := total zero add of_size w k ws in
  gives (cdist (jaccard zero add div) zero one add of_size sigma size_t dev a b w) dev m n (fun i j => div (differ i j) (either i j)) /\
  gives (cdist (yule zero two add mul div is_zero) zero one add of_size sigma size_t dev a b w) dev m n (fun i j =>
    let r := mul (second i j) (first i j) in if is_zero r then zero else div (mul two r) (add (mul (both i j) (neither i j)) r)) /\
  gives (cdist (dice zero two add mul div) zero one add of_size sigma size_t dev a b w) dev m n (fun i j => div (differ i j) (add (mul two (both i j)) (differ i j))) /\
  gives (cdist (rogers_tanimoto zero two add mul div) zero one add of_size sigma size_t dev a b w) dev m n (fun i j => div (mul two (differ i j)) (add all (differ i j))) /\
  gives (cdist (sokal_sneath zero two add mul div) zero one add of_size sigma size_t dev a b w) dev m n (fun i j => div (mul two (differ i j)) (add (mul two (differ i j)) (both i j))) /\
  gives (cdist (russell_rao zero add sub div) zero one add of_size sigma size_t dev a b w) dev m n (fun i j => div (sub all (both i j)) all).
Proof. intros R zero one two add sub mul div is_zero of_size sigma size_t dev a b w m n k A B ws G Hs Sg both neither first second differ either all.
  assert (Dice : forall i j, fold_left (fun s x => dice_step add tt tt s (fst (fst x)) (snd (fst x)) (snd x)) (triples (row k A i) (row k B j) ws) (zero, zero) = (both i j, differ i j)).
  { intros i j. unfold both, differ. rewrite !amount_fold. rewrite <- fold_pair. apply fold_ext. intros (s1, s2) (([], []), c); reflexivity. }
  split; [|split; [|split; [|split; [|split]]]]; (eapply gives_ext; [eapply (l_cdist _ _ _ _ _ _ zero one add of_size sigma size_t dev a b w m n k A B ws G Hs Sg); reflexivity|]); intros i j _ _;
    cbn [m_finish m_stat m_step m_start jaccard yule dice rogers_tanimoto sokal_sneath russell_rao no_stat]; cbv zeta; unfold no_stat; rewrite ?Dice; try reflexivity.
  - unfold differ, either. rewrite !amount_fold. replace (fold_left _ _ (zero, zero)) with (fold_left (fun (s : R * R) (x : bool * bool * R) => (if xorb (fst (fst x)) (snd (fst x)) then add (fst s) (snd x) else fst s, if fst (fst x) || snd (fst x) then add (snd s) (snd x) else snd s)) (triples (row k A i) (row k B j) ws) (zero, zero)).
    + rewrite (fold_pair (fun s x => if xorb (fst (fst x)) (snd (fst x)) then add s (snd x) else s) (fun s x => if fst (fst x) || snd (fst x) then add s (snd x) else s)). reflexivity.
    + apply fold_ext. intros (s1, s2) (([], []), c); reflexivity.
  - assert (Y : fold_left (fun (n : R * R * R * R) (x : bool * bool * R) => let '(ntt, nff, nft, ntf) := n in
         match fst (fst x), snd (fst x) with true, true => (add ntt (snd x), nff, nft, ntf) | false, false => (ntt, add nff (snd x), nft, ntf) | true, false => (ntt, nff, add nft (snd x), ntf) | false, true => (ntt, nff, nft, add ntf (snd x)) end)
         (triples (row k A i) (row k B j) ws) (zero, zero, zero, zero) = (both i j, neither i j, first i j, second i j)).
    { unfold both, neither, first, second. rewrite !amount_fold, <- !fold_pair. apply fold_ext. intros (((s1, s2), s3), s4) (([], []), c); reflexivity. }
    rewrite Y. reflexivity.
  - unfold all, both. rewrite amount_fold. reflexivity. Qed.
Lemma triples_map {T R} (g h : T -> T) u : forall v (ws : list R), triples (map g u) (map h v) ws = map (fun x => (g (fst (fst x)), h (snd (fst x)), snd x)) (triples u v ws).
Proof. unfold triples. induction u as [|x u IH]; intros [|y v] [|w ws]; cbn; auto. now rewrite IH. Qed.
Lemma triples_same {T R} (u : list T) : forall (ws : list R), triples u u ws = map (fun x => (fst x, fst x, snd x)) (combine u ws).
Proof. unfold triples. induction u as [|x u IH]; intros [|w ws]; cbn; auto. now rewrite IH. Qed.
Lemma l_cdist_angles : forall (R : Type) (zero one : R) (add sub mul div : R -> R -> R) (sqrt : R -> R) (of_nat : nat -> R) of_size sigma size_t dev (a b : tensor R) (w : option (tensor R)) m n k A B ws,
  given one a b w m n k A B ws -> size_t <> 0%nat -> schedule sigma ->
  let wx := weighted w in
  let product x y c := if wx then mul (mul c x) y else mul x y in
  let mean u := div (sum_list zero add u) (of_nat k) in
  let norm u := sqrt (sum_over_pairs zero add product u u ws) in
  let shifted u := map (fun x => sub x (mean u)) u in
  gives (cdist (cosine zero one add sub mul div sqrt wx) zero one add of_size sigma size_t dev a b w) dev m n (fun i j =>
    let u := row k A i in let v := row k B j in sub one (div (sum_over_pairs zero add product u v ws) (mul (norm u) (norm v)))) /\
  gives (cdist (correlation zero one add sub mul div sqrt of_nat wx) zero one add of_size sigma size_t dev a b w) dev m n (fun i j =>
    let u := shifted (row k A i) in let v := shifted (row k B j) in sub one (div (sum_over_pairs zero add product u v ws) (mul (norm u) (norm v)))).
Proof. intros R zero one add sub mul div sqrt of_nat of_size sigma size_t dev a b w m n k A B ws G Hs Sg wx product mean norm shifted.
  split; (eapply gives_ext; [eapply (l_cdist _ _ _ _ _ _ zero one add of_size sigma size_t dev a b w m n k A B ws G Hs Sg); apply Nat.eqb_refl|]); intros i j _ _; cbn [m_finish m_stat m_step m_start cosine correlation fst snd]; cbv zeta.
  - f_equal. f_equal.
    + unfold sum_over_pairs, sum_list. rewrite fold_map. reflexivity.
    + assert (N : forall u, plain_norm zero add mul sqrt wx ws u = norm u); [|now rewrite !N]. intro u. unfold plain_norm, norm. f_equal. unfold sum_over_pairs, sum_list. rewrite fold_map, triples_same, fold_map. reflexivity.
  - assert (Me : forall u, length u = k -> mean_of zero add div of_nat u = mean u) by (intros u <-; reflexivity). rewrite !Me by apply row_length. f_equal. f_equal.
    + unfold sum_over_pairs, sum_list, shifted. rewrite triples_map, !fold_map. reflexivity.
    + assert (N : forall u, norm_of zero add sub mul sqrt wx (mean u) ws u = norm (shifted u)); [|now rewrite !N]. intro u. unfold norm_of, norm. f_equal. unfold sum_over_pairs, sum_list, shifted. rewrite triples_map, triples_same, !fold_map. reflexivity. Qed.
Lemma js_fold {R} (zero two one inf : R) (add mul div : R -> R -> R) (ln : R -> R) (lt : R -> R -> bool) su sv k : forall u v, length u = k -> length v = k -> (forall x, In x u -> lt x zero = false) -> (forall x, In x v -> lt x zero = false) -> forall s,
  fold_left (fun s x => if lt (fst (fst x)) zero || lt (snd (fst x)) zero then inf
     else let p := div (fst (fst x)) su in let q := div (snd (fst x)) sv in let m := div (add p q) two in let s := if lt zero p then add s (mul p (ln (div p m))) else s in if lt zero q then add s (mul q (ln (div q m))) else s)
    (triples u v (repeat one k)) s =
  fold_left add (flat_map (fun x => let p := div (fst x) su in let q := div (snd x) sv in let m := div (add p q) two in (if lt zero p then [mul p (ln (div p m))] else []) ++ (if lt zero q then [mul q (ln (div q m))] else [])) (combine u v)) s.
Proof. induction k as [|k IH]; intros [|x u] [|y v] Lu Lv Pu Pv s; try discriminate; auto. unfold triples in *. cbn [repeat combine fold_left flat_map fst snd]. cbv zeta. rewrite (Pu x) by now left. rewrite (Pv y) by now left. cbn [orb]. rewrite !fold_left_app.
  rewrite IH; [|cbn in Lu; lia|cbn in Lv; lia|intros; apply Pu; now right|intros; apply Pv; now right]. f_equal. now destruct (lt zero (div x su)), (lt zero (div y sv)). Qed.
Lemma l_cdist_jensen_shannon : forall (R : Type) (zero one two inf : R) (add mul div : R -> R -> R) (sqrt ln : R -> R) (lt le : R -> R -> bool) of_size sigma size_t dev (a b : tensor R) m n k A B,
  given one a b None m n k A B (repeat one k) -> size_t <> 0%nat -> schedule sigma -> (forall i j, (i < m)%nat -> (j < k)%nat -> lt (A i j) zero = false) -> (forall i j, (i < n)%nat -> (j < k)%nat -> lt (B i j) zero = false) ->
  let term p m := if lt zero p then [mul p (ln (div p m))] else [] in
  gives (cdist (jensen_shannon zero two add mul div sqrt ln inf lt le) zero one add of_size sigma size_t dev a b None) dev m n (fun i j =>
    let su := sum_list zero add (row k A i) in let sv := sum_list zero add (row k B j) in
    if le su zero && le sv zero then inf
    else sqrt (div (sum_list zero add (flat_map (fun x => let p := div (fst x) su in let q := div (snd x) sv in let m := div (add p q) two in term p m ++ term q m) (combine (row k A i) (row k B j)))) two)).
Proof. intros R zero one two inf add mul div sqrt ln lt le of_size sigma size_t dev a b m n k A B G Hs Sg PA PB term.
  eapply gives_ext; [eapply (l_cdist _ _ _ _ _ _ zero one add of_size sigma size_t dev a b None m n k A B _ G Hs Sg); reflexivity|]. intros i j Hi Hj. cbn [m_finish m_stat m_step m_start jensen_shannon]. cbv zeta. fold (sum_list zero add (row k A i)). fold (sum_list zero add (row k B j)).
  set (su := sum_list zero add (row k A i)). set (sv := sum_list zero add (row k B j)). destruct (le su zero && le sv zero); auto. f_equal. f_equal.
  assert (Pu : forall x, In x (row k A i) -> lt x zero = false) by (intros x H; apply in_map_iff in H as (c & <- & H); apply in_seq in H; apply PA; lia).
  assert (Pv : forall x, In x (row k B j) -> lt x zero = false) by (intros x H; apply in_map_iff in H as (c & <- & H); apply in_seq in H; apply PB; lia).
  assert (Lu := row_length k A i). assert (Lv := row_length k B j). now apply (js_fold zero two one inf add mul div ln lt su sv k). Qed.
(** ** refutations *)
Lemma l_cdist_no_columns_refuted : forall (T W P S O : Type) (M : metric T W P S O) zero one add of_size sigma size_t dev (a b : tensor T) m n A B,
  holds (t_data a) (t_layout a) m 0 A -> holds (t_data b) (t_layout b) n 0 B -> m_fits M 0 0 = true -> cdist M zero one add of_size sigma size_t dev a b None = Panic.
Proof. intros T W P S O M zero one add of_size sigma size_t dev a b m n A B Ha Hb Fit. unfold cdist, ndim. rewrite (proj1 Ha), (proj1 Hb). cbn [length Nat.eqb check bind]. unfold cdist_cells. cbv zeta.
  assert (Ea : extent (t_layout a) 1 = 0%nat) by (unfold extent; now rewrite (proj1 Ha)). assert (Eb : extent (t_layout b) 1 = 0%nat) by (unfold extent; now rewrite (proj1 Hb)). rewrite Ea, Eb. cbn [Nat.eqb check bind repeat length]. rewrite Fit. cbn [check bind].
  rewrite (initialize_ok M add of_size _ _ _ _ _ _ Ha), (initialize_ok M add of_size _ _ _ _ _ _ Hb). cbn [bind]. unfold batch_size. rewrite Nat.mul_0_r. reflexivity. Qed.
Definition two_ones : tensor Z := mkTensor [1; 1] (mkLayout [1; 2]%nat [2; 1] 0).
Definition two_zeros : tensor Z := mkTensor [0; 0] (mkLayout [1; 2]%nat [2; 1] 0).
Lemma l_cdist_weights_view_refuted : exists (a b w : tensor Z) (ws : list Z),
  tensor_ok a /\ tensor_ok b /\ tensor_ok w /\ holds (t_data a) (t_layout a) 1 2 (fun _ _ => 1) /\ holds (t_data b) (t_layout b) 1 2 (fun _ _ => 0) /\ lists (t_data w) (t_layout w) ws /\ length ws = 2%nat /\
  Z.div (amount 0 Z.add (fun x y => negb (x =? y)) [1; 1] [0; 0] ws) (sum_list 0 Z.add ws) = 1 /\
  (exists t, cdist_serial (hamming 0 Z.add Z.div Z.eqb) 0 1 Z.add Z.of_nat 8 RowMajor a b (Some w) = Ok t /\ at_ t [0; 0]%nat = Some 0) /\
  cdist_serial (cosine 0 1 Z.add Z.sub Z.mul Z.div Z.sqrt true) 0 1 Z.add Z.of_nat 8 RowMajor a b (Some w) = Err InvalidLayout.
Proof. exists two_ones, two_zeros, (mkTensor [2; 2; 4] (mkLayout [2]%nat [1] 0)), [2; 2].
  assert (K : forall x : Z, tensor_ok (mkTensor [x; x] (mkLayout [1; 2]%nat [2; 1] 0)) /\ holds [x; x] (mkLayout [1; 2]%nat [2; 1] 0) 1 2 (fun _ _ => x)).
  { intro x. split; [split; [repeat split; cbn; lia|]|split; [reflexivity|]].
    - intros ix V. apply valid_pair in V as (i & j & -> & Hi & Hj). cbn [t_layout t_data length]. rewrite addr2. lia.
    - intros i j Hi Hj. destruct i as [|i]; [|lia]. destruct j as [|[|j]]; [reflexivity|reflexivity|lia]. }
  split; [apply K|]. split; [apply K|]. split.
  { split; [repeat split; cbn; lia|]. intros ix V. inversion V; subst. inversion H3; subst. unfold addr. cbn [l_offset l_stride dot t_layout t_data length]. lia. }
  split; [apply K|]. split; [apply K|]. split.
  { split; [reflexivity|]. intros j Hj. destruct j as [|[|j]]; [reflexivity|reflexivity|cbn in Hj; lia]. }
  split; [reflexivity|]. split; [reflexivity|]. split; [|vm_compute; reflexivity]. eexists. split; [vm_compute; reflexivity|reflexivity]. Qed.
Lemma l_cdist_weights_length_refuted : exists (w : tensor Z) (b' : tensor Z), tensor_ok w /\ t_shape w = [1]%nat /\ t_shape b' = t_shape two_zeros /\ (forall ix, valid [1; 2]%nat ix -> at_ b' ix = at_ two_zeros ix) /\
  (exists t, cdist_serial (city_block 0 Z.add Z.mul Z.sub Z.abs true) 0 1 Z.add Z.of_nat 8 RowMajor two_ones two_zeros (Some w) = Ok t /\ at_ t [0; 0]%nat = Some 1) /\
  cdist_serial (city_block 0 Z.add Z.mul Z.sub Z.abs true) 0 1 Z.add Z.of_nat 8 RowMajor two_ones b' (Some w) = Panic.
Proof. exists (mkTensor [1] (mkLayout [1]%nat [1] 0)), (mkTensor [0; 7; 0] (mkLayout [1; 2]%nat [4; 2] 0)). split.
  { split; [repeat split; cbn; lia|]. intros ix V. inversion V; subst. inversion H3; subst. unfold addr. cbn [l_offset l_stride dot t_layout t_data length]. lia. }
  split; [reflexivity|]. split; [reflexivity|]. split.
  { intros ix V. apply valid_pair in V as (i & j & -> & Hi & Hj). destruct i as [|i]; [|lia]. destruct j as [|[|j]]; [reflexivity|reflexivity|lia]. }
  split; [eexists; split; [vm_compute; reflexivity|reflexivity]|vm_compute; reflexivity]. Qed.
(** which metrics are symmetric *)
Lemma l_cdist_booleans_symmetric : forall (R : Type) (zero one two : R) (add sub mul div : R -> R -> R) (is_zero : R -> bool) of_size size_t dev (a b : tensor bool) (w : option (tensor R)) m n k A B ws,
  given one a b w m n k A B ws -> size_t <> 0%nat -> (forall x y, mul x y = mul y x) ->
  let symmetric {S} (M : metric bool R unit S R) := forall t t', cdist_serial M zero one add of_size size_t dev a b w = Ok t -> cdist_serial M zero one add of_size size_t dev b a w = Ok t' -> forall i j, (i < m)%nat -> (j < n)%nat -> at_ t [i; j] = at_ t' [j; i] in
  symmetric (jaccard zero add div) /\ symmetric (yule zero two add mul div is_zero) /\ symmetric (dice zero two add mul div) /\ symmetric (rogers_tanimoto zero two add mul div) /\ symmetric (sokal_sneath zero two add mul div) /\ symmetric (russell_rao zero add sub div).
Proof. intros R zero one two add sub mul div is_zero of_size size_t dev a b w m n k A B ws G Hs Mc symmetric.
  assert (K : forall S (M : metric bool R unit S R), m_fits M k k = true -> (forall p q s u v c, m_step M p q s u v c = m_step M q p s v u c) -> (forall p q wt s, m_finish M p q wt s = m_finish M q p wt s) -> symmetric S M).
  { intros S M Fit Hst Hf t t' E E'. eapply (l_cdist_symmetric bool R unit S R M zero one add of_size size_t dev a b w m n k A B ws t t' eq); eauto. { intros p q s s' u v c ->. apply Hst. } { intros p q wt s s' ->. apply Hf. } }
  split; [|split; [|split; [|split; [|split]]]]; [|intros t t' E E'|..]; try (apply K; [reflexivity| |reflexivity]; intros p q s [] [] c; try destruct s; reflexivity).
  refine (l_cdist_symmetric bool R unit _ R (yule zero two add mul div is_zero) zero one add of_size size_t dev a b w m n k A B ws t t' (fun s s' => let '(x1, x2, x3, x4) := s in s' = (x1, x2, x4, x3)) G Hs eq_refl eq_refl _ _ E E').
  - intros p q (((x1, x2), x3), x4) s' [] [] c ->; reflexivity.
  - intros p q wt (((x1, x2), x3), x4) s' ->. cbn. now rewrite (Mc x3 x4). Qed.
Lemma l_cdist_differences_symmetric : forall (T R : Type) (zero one : R) (add mul div max : R -> R -> R) (is_zero : R -> bool) (subt addt : T -> T -> T) (abs square : T -> R) (sqrt : R -> R) (powf : R -> R -> R) (p : R) (eqt : T -> T -> bool) of_size size_t dev (a b : tensor T) (w : option (tensor R)) m n k A B ws,
  given one a b w m n k A B ws -> size_t <> 0%nat -> (forall x y, add x y = add y x) -> (forall x y, abs (subt x y) = abs (subt y x)) -> (forall x y, square (subt x y) = square (subt y x)) -> (forall x y, addt x y = addt y x) -> (forall x y, eqt x y = eqt y x) ->
  let wx := weighted w in
  let symmetric {S} (M : metric T R unit S R) := forall t t', cdist_serial M zero one add of_size size_t dev a b w = Ok t -> cdist_serial M zero one add of_size size_t dev b a w = Ok t' -> forall i j, (i < m)%nat -> (j < n)%nat -> at_ t [i; j] = at_ t' [j; i] in
  symmetric (euclidean zero add mul subt wx square sqrt) /\ symmetric (sq_euclidean zero add mul subt wx square) /\ symmetric (city_block zero add mul subt abs wx) /\ symmetric (minkowski zero one add mul div subt abs wx powf p) /\
  symmetric (canberra zero add mul div is_zero subt abs wx) /\ symmetric (chebyshev zero max is_zero subt abs wx) /\ symmetric (bray_curtis zero add mul div subt addt abs wx) /\ symmetric (hamming zero add div eqt).
Proof. intros T R zero one add mul div max is_zero subt addt abs square sqrt powf p eqt of_size size_t dev a b w m n k A B ws G Hs Ac Hab Hsq Had Heq wx symmetric.
  assert (K : forall S (M : metric T R unit S R), m_fits M k k = true -> (forall p q s u v c, m_step M p q s u v c = m_step M q p s v u c) -> (forall p q wt s, m_finish M p q wt s = m_finish M q p wt s) -> symmetric S M).
  { intros S M Fit Hst Hf t t' E E'. eapply (l_cdist_symmetric T R unit S R M zero one add of_size size_t dev a b w m n k A B ws t t' eq); eauto. { intros p' q s s' u v c ->. apply Hst. } { intros p' q wt s s' ->. apply Hf. } }
  split; [|split; [|split; [|split; [|split; [|split; [|split]]]]]]; apply K; try reflexivity; intros p' q s u v c; cbn.
  - now rewrite Hsq.
  - now rewrite Hsq.
  - now rewrite Hab.
  - now rewrite Hab.
  - now rewrite (Hab u v), (Ac (abs u) (abs v)).
  - now rewrite Hab.
  - now rewrite Hab, Had.
  - now rewrite Heq. Qed.
