(** Property theorems about tables of distances (C71, C72).  Statements use Spec.v, Spec_Blas.v, Spec_Dist.v and the modelled entry points and metrics of
    M_Dist.v only.  [size_t] is the size of an entry in bytes, [sigma] the order in which the cells are computed, [dev] the device's default order. *)
From Verif Require Import Base Spec Spec_Blas Spec_Dist P_Index M_Layout M_Kernel M_Tensor M_Matmul P_Strides P_Tensor M_Dist Q_Dist.
Local Open Scope Z_scope.

(** [[1; 2; 3]; [4; 5; 6]] row-major, and [[0; 2; 0]] with gaps *)
Definition dx_a : tensor Z := mkTensor [1; 2; 3; 4; 5; 6] (mkLayout [2; 3]%nat [3; 1] 0).
Definition dx_b : tensor Z := mkTensor [9; 0; 9; 2; 9; 0] (mkLayout [1; 3]%nat [6; 2] 1).
Definition dx_A (i j : nat) : Z := Z.of_nat (i * 3 + j + 1).
Definition dx_B (i j : nat) : Z := if (j =? 1)%nat then 2 else 0.
(** weights 1, 0, 10, and flags *)
Definition dx_w : tensor Z := mkTensor [10; 5; 0; 5; 1] (mkLayout [3]%nat [-2] 4).
Definition dx_p : tensor bool := mkTensor [true; true; false; true] (mkLayout [2; 2]%nat [2; 1] 0).
Definition dx_P (i j : nat) : bool := negb ((i =? 1)%nat && (j =? 0)%nat).
Lemma dx_given : given 1 dx_a dx_b None 2 1 3 dx_A dx_B [1; 1; 1].
Proof. split; [unfold dx_a; concrete_tensor|]. split; [unfold dx_b; concrete_tensor|]. split; [split; [reflexivity|]; intros [|[|i]] [|[|[|j]]] Hi Hj; try lia; reflexivity|].
  split; [split; [reflexivity|]; intros [|i] [|[|[|j]]] Hi Hj; try lia; reflexivity|]. split; [lia|reflexivity]. Qed.
Lemma dx_given_w : given 1 dx_a dx_b (Some dx_w) 2 1 3 dx_A dx_B [1; 0; 10].
Proof. destruct dx_given as (Ta & Tb & Ha & Hb & Hk & _). repeat (split; [assumption|]). split; [reflexivity|]. split; [unfold dx_w; concrete_tensor|]. split; [|right; left; cbn; lia].
  split; [reflexivity|]. intros [|[|[|j]]] Hj; try (cbn in Hj; lia); reflexivity. Qed.
Lemma dx_given_p : given 1 dx_p dx_p None 2 2 2 dx_P dx_P [1; 1].
Proof. assert (T : tensor_ok dx_p) by (unfold dx_p; concrete_tensor). assert (H : holds (t_data dx_p) (t_layout dx_p) 2 2 dx_P) by (split; [reflexivity|]; intros [|[|i]] [|[|j]] Hi Hj; try lia; reflexivity).
  repeat (split; [assumption|]). split; [lia|reflexivity]. Qed.
Lemma dx_reverse : schedule (@rev (nat * nat)). Proof. intro cells. symmetry. apply Permutation_rev. Qed.

(** C71: for every metric and every order of computation, entry (i, j) of the table is the metric applied to row i of a and row j of b: the metric's step folded over the corresponding entries (and weights), whatever the strides and offsets of a, b and the weights and whatever the batches.  (The storage of the weights is their own, or they are not its prefix.) *)
Theorem C71_cdist : forall (T W P S O : Type) (M : metric T W P S O) zero one add of_size sigma size_t dev (a b : tensor T) (w : option (tensor W)) m n k A B ws,
  given one a b w m n k A B ws -> size_t <> 0%nat -> schedule sigma -> m_fits M k k = true ->
  gives (cdist M zero one add of_size sigma size_t dev a b w) dev m n (fun i j =>
    let u := row k A i in let v := row k B j in let pu := m_stat M ws u in let pv := m_stat M ws v in
    m_finish M pu pv (total zero add of_size w k ws) (fold_left (fun s x => m_step M pu pv s (fst (fst x)) (snd (fst x)) (snd x)) (triples u v ws) (m_start M))).
Proof. exact l_cdist. Qed.
Example C71_example : given 1 dx_a dx_b (Some dx_w) 2 1 3 dx_A dx_B [1; 0; 10] /\ schedule (@rev (nat * nat)) /\
  cdist (city_block 0 Z.add Z.mul Z.sub Z.abs true) 0 1 Z.add Z.of_nat (@rev (nat * nat)) 8 RowMajor dx_a dx_b (Some dx_w) = Ok (mkTensor [31; 64] (mkLayout [2; 1]%nat [1; 1] 0)).
Proof. split; [apply dx_given_w|]. split; [apply dx_reverse|]. vm_compute. reflexivity. Qed.
Print Assumptions C71_cdist.

(** C71: the parallel devices return what the serial one returns. *)
Theorem C71_schedule : forall (T W P S O : Type) (M : metric T W P S O) zero one add of_size size_t dev (a b : tensor T) (w : option (tensor W)) m n k A B ws r,
  given one a b w m n k A B ws -> size_t <> 0%nat -> m_fits M k k = true -> cdist_rayon M zero one add of_size size_t dev a b w r -> r = cdist_serial M zero one add of_size size_t dev a b w.
Proof. exact l_cdist_schedule. Qed.
Example C71_schedule_example : cdist_rayon (city_block 0 Z.add Z.mul Z.sub Z.abs false) 0 1 Z.add Z.of_nat 8 ColMajor dx_a dx_b None
  (cdist (city_block 0 Z.add Z.mul Z.sub Z.abs false) 0 1 Z.add Z.of_nat (@rev (nat * nat)) 8 ColMajor dx_a dx_b None).
Proof. exists (@rev (nat * nat)). split; [apply dx_reverse|reflexivity]. Qed.
Print Assumptions C71_schedule.

(** C71: operands that are not matrices, matrices with different numbers of columns and weights that are not a vector are rejected with an error. *)
Theorem C71_rejects : forall (T W P S O : Type) (M : metric T W P S O) zero one add of_size sigma size_t dev (a b : tensor T) (w : option (tensor W)),
  (ndim (t_layout a) <> 2%nat \/ ndim (t_layout b) <> 2%nat \/ w = None /\ nth 1 (l_shape (t_layout a)) 0%nat <> nth 1 (l_shape (t_layout b)) 0%nat \/ (exists x, w = Some x /\ ndim (t_layout x) <> 1%nat)) ->
  cdist M zero one add of_size sigma size_t dev a b w = Err InvalidLayout.
Proof. exact l_cdist_rejects. Qed.
Example C71_rejects_example : nth 1 (l_shape (t_layout dx_a)) 0%nat <> nth 1 (l_shape (t_layout (mkTensor [1; 2] (mkLayout [1; 2]%nat [2; 1] 0)))) 0%nat /\
  cdist_serial (city_block 0 Z.add Z.mul Z.sub Z.abs false) 0 1 Z.add Z.of_nat 8 ColMajor dx_a (mkTensor [1; 2] (mkLayout [1; 2]%nat [2; 1] 0)) None = Err InvalidLayout.
Proof. split; [cbn; lia|reflexivity]. Qed.
Print Assumptions C71_rejects.

(** C71: distances between rows without columns cannot be computed: the batch size divides by the number of columns, so the call panics. *)
Theorem C71_no_columns_refuted : forall (T W P S O : Type) (M : metric T W P S O) zero one add of_size sigma size_t dev (a b : tensor T) m n A B,
  holds (t_data a) (t_layout a) m 0 A -> holds (t_data b) (t_layout b) n 0 B -> m_fits M 0 0 = true -> cdist M zero one add of_size sigma size_t dev a b None = Panic.
Proof. exact l_cdist_no_columns_refuted. Qed.
Example C71_no_columns_example : holds (t_data (mkTensor (@nil Z) (mkLayout [2; 0]%nat [1; 1] 0))) (mkLayout [2; 0]%nat [1; 1] 0) 2 0 dx_A.
Proof. split; [reflexivity|]. intros i j Hi Hj. lia. Qed.
Print Assumptions C71_no_columns_refuted.

(** C71: weights that are a prefix of a longer storage (w.i(..k)) are not taken as they are: the sum of the weights runs over the whole storage (here the weighted Hamming distance 4/4 is computed as 4/8), and the cosine metric rejects them. *)
Theorem C71_weights_view_refuted : exists (a b w : tensor Z) (ws : list Z),
  tensor_ok a /\ tensor_ok b /\ tensor_ok w /\ holds (t_data a) (t_layout a) 1 2 (fun _ _ => 1) /\ holds (t_data b) (t_layout b) 1 2 (fun _ _ => 0) /\ lists (t_data w) (t_layout w) ws /\ length ws = 2%nat /\
  Z.div (amount 0 Z.add (fun x y => negb (x =? y)) [1; 1] [0; 0] ws) (sum_list 0 Z.add ws) = 1 /\
  (exists t, cdist_serial (hamming 0 Z.add Z.div Z.eqb) 0 1 Z.add Z.of_nat 8 RowMajor a b (Some w) = Ok t /\ at_ t [0; 0]%nat = Some 0) /\
  cdist_serial (cosine 0 1 Z.add Z.sub Z.mul Z.div Z.sqrt true) 0 1 Z.add Z.of_nat 8 RowMajor a b (Some w) = Err InvalidLayout.
Proof. exact l_cdist_weights_view_refuted. Qed.
Print Assumptions C71_weights_view_refuted.

(** C71: a number of weights other than the number of columns is not rejected: contiguous operands silently lose the columns without a weight, strided ones panic. *)
Theorem C71_weights_length_refuted : exists (w : tensor Z) (b' : tensor Z), tensor_ok w /\ t_shape w = [1]%nat /\ t_shape b' = t_shape two_zeros /\ (forall ix, valid [1; 2]%nat ix -> at_ b' ix = at_ two_zeros ix) /\
  (exists t, cdist_serial (city_block 0 Z.add Z.mul Z.sub Z.abs true) 0 1 Z.add Z.of_nat 8 RowMajor two_ones two_zeros (Some w) = Ok t /\ at_ t [0; 0]%nat = Some 1) /\
  cdist_serial (city_block 0 Z.add Z.mul Z.sub Z.abs true) 0 1 Z.add Z.of_nat 8 RowMajor two_ones b' (Some w) = Panic.
Proof. exact l_cdist_weights_length_refuted. Qed.
Print Assumptions C71_weights_length_refuted.

(** C71: for a metric that does not distinguish its two vectors (its states after the swap stay related), cdist(b, a) is the transpose of cdist(a, b). *)
Theorem C71_symmetric : forall (T W P S O : Type) (M : metric T W P S O) zero one add of_size size_t dev (a b : tensor T) (w : option (tensor W)) m n k A B ws t t' (R : S -> S -> Prop),
  given one a b w m n k A B ws -> size_t <> 0%nat -> m_fits M k k = true ->
  R (m_start M) (m_start M) -> (forall p q s s' u v w, R s s' -> R (m_step M p q s u v w) (m_step M q p s' v u w)) -> (forall p q wt s s', R s s' -> m_finish M p q wt s = m_finish M q p wt s') ->
  cdist_serial M zero one add of_size size_t dev a b w = Ok t -> cdist_serial M zero one add of_size size_t dev b a w = Ok t' ->
  forall i j, (i < m)%nat -> (j < n)%nat -> at_ t [i; j] = at_ t' [j; i].
Proof. exact l_cdist_symmetric. Qed.
Example C71_symmetric_example : cdist_serial (city_block 0 Z.add Z.mul Z.sub Z.abs false) 0 1 Z.add Z.of_nat 8 RowMajor dx_a dx_b None = Ok (mkTensor [4; 13] (mkLayout [2; 1]%nat [1; 1] 0)) /\
  cdist_serial (city_block 0 Z.add Z.mul Z.sub Z.abs false) 0 1 Z.add Z.of_nat 8 RowMajor dx_b dx_a None = Ok (mkTensor [4; 13] (mkLayout [1; 2]%nat [2; 1] 0)).
Proof. vm_compute. auto. Qed.
Print Assumptions C71_symmetric.

(** C72: the Euclidean, squared Euclidean, city block and Minkowski distances are the (weighted) sums of the squares, absolute values or powers of the differences, under the root where there is one.  For arbitrary arithmetic: the sums run from the first column to the last, starting at zero. *)
Theorem C72_sums : forall (T R : Type) (zero one : R) (add mul div : R -> R -> R) (subt : T -> T -> T) (abs square : T -> R) (sqrt : R -> R) (powf : R -> R -> R) (p : R) of_size sigma size_t dev (a b : tensor T) (w : option (tensor R)) m n k A B ws,
  given one a b w m n k A B ws -> size_t <> 0%nat -> schedule sigma ->
  let wx := weighted w in
  let sum f i j := sum_over_pairs zero add (fun x y c => if wx then mul c (f x y) else f x y) (row k A i) (row k B j) ws in
  gives (cdist (euclidean zero add mul subt wx square sqrt) zero one add of_size sigma size_t dev a b w) dev m n (fun i j => sqrt (sum (fun x y => square (subt x y)) i j)) /\
  gives (cdist (sq_euclidean zero add mul subt wx square) zero one add of_size sigma size_t dev a b w) dev m n (fun i j => sum (fun x y => square (subt x y)) i j) /\
  gives (cdist (city_block zero add mul subt abs wx) zero one add of_size sigma size_t dev a b w) dev m n (fun i j => sum (fun x y => abs (subt x y)) i j) /\
  gives (cdist (minkowski zero one add mul div subt abs wx powf p) zero one add of_size sigma size_t dev a b w) dev m n (fun i j => powf (sum (fun x y => powf (abs (subt x y)) p) i j) (div one p)).
Proof. exact l_cdist_sums. Qed.
Example C72_sums_example : given 1 dx_a dx_b None 2 1 3 dx_A dx_B [1; 1; 1] /\
  cdist_serial (sq_euclidean 0 Z.add Z.mul Z.sub false (fun x => x * x)) 0 1 Z.add Z.of_nat 8 RowMajor dx_a dx_b None = Ok (mkTensor [10; 61] (mkLayout [2; 1]%nat [1; 1] 0)).
Proof. split; [apply dx_given|]. vm_compute. reflexivity. Qed.
Print Assumptions C72_sums.

(** C72: the Canberra, Chebyshev, Bray-Curtis and Hamming distances are their textbook formulas over the corresponding entries and weights. *)
Theorem C72_ratios : forall (T R : Type) (zero one : R) (add mul div max : R -> R -> R) (is_zero : R -> bool) (subt addt : T -> T -> T) (abs : T -> R) (eqt : T -> T -> bool) of_size sigma size_t dev (a b : tensor T) (w : option (tensor R)) m n k A B ws,
  given one a b w m n k A B ws -> size_t <> 0%nat -> schedule sigma ->
  let wx := weighted w in
  let weight c x := if wx then mul c x else x in
  gives (cdist (canberra zero add mul div is_zero subt abs wx) zero one add of_size sigma size_t dev a b w) dev m n (fun i j =>
    sum_list zero add (map (fun x => let '(u, v, c) := x in div (weight c (abs (subt u v))) (add (abs u) (abs v))) (filter (fun x => negb (is_zero (add (abs (fst (fst x))) (abs (snd (fst x)))))) (triples (row k A i) (row k B j) ws)))) /\
  gives (cdist (chebyshev zero max is_zero subt abs wx) zero one add of_size sigma size_t dev a b w) dev m n (fun i j =>
    greatest zero max (map (fun x => abs (subt (fst (fst x)) (snd (fst x)))) (filter (fun x => negb (wx && is_zero (snd x))) (triples (row k A i) (row k B j) ws)))) /\
  gives (cdist (bray_curtis zero add mul div subt addt abs wx) zero one add of_size sigma size_t dev a b w) dev m n (fun i j =>
    div (sum_over_pairs zero add (fun x y c => weight c (abs (subt x y))) (row k A i) (row k B j) ws) (sum_over_pairs zero add (fun x y c => weight c (abs (addt x y))) (row k A i) (row k B j) ws)) /\
  gives (cdist (hamming zero add div eqt) zero one add of_size sigma size_t dev a b w) dev m n (fun i j =>
    div (amount zero add (fun x y => negb (eqt x y)) (row k A i) (row k B j) ws) (total zero add of_size w k ws)).
Proof. exact l_cdist_ratios. Qed.
Example C72_ratios_example : cdist_serial (chebyshev 0 Z.max (Z.eqb 0) Z.sub Z.abs true) 0 1 Z.add Z.of_nat 8 RowMajor dx_a dx_b (Some dx_w) = Ok (mkTensor [3; 6] (mkLayout [2; 1]%nat [1; 1] 0)) /\
  cdist_serial (hamming 0 Z.add (fun x y => 100 * x / y) Z.eqb) 0 1 Z.add Z.of_nat 8 RowMajor dx_a dx_b None = Ok (mkTensor [66; 100] (mkLayout [2; 1]%nat [1; 1] 0)).
Proof. vm_compute. auto. Qed.
Print Assumptions C72_ratios.

(** C72: the Jaccard, Yule, Dice, Rogers-Tanimoto, Sokal-Sneath and Russell-Rao dissimilarities are their textbook ratios of the (weighted) numbers of columns where both, neither, either or exactly one of the two entries are true. *)
Theorem C72_booleans : forall (R : Type) (zero one two : R) (add sub mul div : R -> R -> R) (is_zero : R -> bool) of_size sigma size_t dev (a b : tensor bool) (w : option (tensor R)) m n k A B ws,
  given one a b w m n k A B ws -> size_t <> 0%nat -> schedule sigma ->
  let both i j := amount zero add (fun x y => x && y) (row k A i) (row k B j) ws in
  let neither i j := amount zero add (fun x y => negb x && negb y) (row k A i) (row k B j) ws in
  let first i j := amount zero add (fun x y => x && negb y) (row k A i) (row k B j) ws in
  let second i j := amount zero add (fun x y => negb x && y) (row k A i) (row k B j) ws in
  let differ i j := amount zero add (fun x y => xorb x y) (row k A i) (row k B j) ws in
  let either i j := amount zero add (fun x y => x || y) (row k A i) (row k B j) ws in
  let all := total zero add of_size w k ws in
  gives (cdist (jaccard zero add div) zero one add of_size sigma size_t dev a b w) dev m n (fun i j => div (differ i j) (either i j)) /\
  gives (cdist (yule zero two add mul div is_zero) zero one add of_size sigma size_t dev a b w) dev m n (fun i j =>
    let r := mul (second i j) (first i j) in if is_zero r then zero else div (mul two r) (add (mul (both i j) (neither i j)) r)) /\
  gives (cdist (dice zero two add mul div) zero one add of_size sigma size_t dev a b w) dev m n (fun i j => div (differ i j) (add (mul two (both i j)) (differ i j))) /\
  gives (cdist (rogers_tanimoto zero two add mul div) zero one add of_size sigma size_t dev a b w) dev m n (fun i j => div (mul two (differ i j)) (add all (differ i j))) /\
  gives (cdist (sokal_sneath zero two add mul div) zero one add of_size sigma size_t dev a b w) dev m n (fun i j => div (mul two (differ i j)) (add (mul two (differ i j)) (both i j))) /\
  gives (cdist (russell_rao zero add sub div) zero one add of_size sigma size_t dev a b w) dev m n (fun i j => div (sub all (both i j)) all).
Proof. exact l_cdist_booleans. Qed.
Example C72_booleans_example : given 1 dx_p dx_p None 2 2 2 dx_P dx_P [1; 1] /\
  cdist_serial (jaccard 0 Z.add (fun x y => 100 * x / y)) 0 1 Z.add Z.of_nat 1 RowMajor dx_p dx_p None = Ok (mkTensor [0; 50; 50; 0] (mkLayout [2; 2]%nat [2; 1] 0)) /\
  cdist_serial (rogers_tanimoto 0 2 Z.add Z.mul (fun x y => 100 * x / y)) 0 1 Z.add Z.of_nat 1 RowMajor dx_p dx_p None = Ok (mkTensor [0; 66; 66; 0] (mkLayout [2; 2]%nat [2; 1] 0)).
Proof. split; [apply dx_given_p|]. vm_compute. auto. Qed.
Print Assumptions C72_booleans.

(** C72: the cosine distance is one minus the (weighted) inner product divided by the norms; the correlation distance is the same for the rows shifted by their means (the mean is not weighted in the weighted version either). *)
Theorem C72_angles : forall (R : Type) (zero one : R) (add sub mul div : R -> R -> R) (sqrt : R -> R) (of_nat : nat -> R) of_size sigma size_t dev (a b : tensor R) (w : option (tensor R)) m n k A B ws,
  given one a b w m n k A B ws -> size_t <> 0%nat -> schedule sigma ->
  let wx := weighted w in
  let product x y c := if wx then mul (mul c x) y else mul x y in
  let mean u := div (sum_list zero add u) (of_nat k) in
  let norm u := sqrt (sum_over_pairs zero add product u u ws) in
  let shifted u := map (fun x => sub x (mean u)) u in
  gives (cdist (cosine zero one add sub mul div sqrt wx) zero one add of_size sigma size_t dev a b w) dev m n (fun i j =>
    let u := row k A i in let v := row k B j in sub one (div (sum_over_pairs zero add product u v ws) (mul (norm u) (norm v)))) /\
  gives (cdist (correlation zero one add sub mul div sqrt of_nat wx) zero one add of_size sigma size_t dev a b w) dev m n (fun i j =>
    let u := shifted (row k A i) in let v := shifted (row k B j) in sub one (div (sum_over_pairs zero add product u v ws) (mul (norm u) (norm v)))).
Proof. exact l_cdist_angles. Qed.
Example C72_angles_example : cdist_serial (cosine 0 1 Z.add Z.sub Z.mul (fun x y => 100 * x / y) Z.sqrt false) 0 1 Z.add Z.of_nat 8 RowMajor dx_a dx_b None = Ok (mkTensor [-65; -61] (mkLayout [2; 1]%nat [1; 1] 0)).
Proof. vm_compute. reflexivity. Qed.
Print Assumptions C72_angles.

(** C72: for rows without negative entries the Jensen-Shannon distance is the root of half the sum of the two relative entropies to the mean distribution; both sums zero gives infinity. *)
Theorem C72_jensen_shannon : forall (R : Type) (zero one two inf : R) (add mul div : R -> R -> R) (sqrt ln : R -> R) (lt le : R -> R -> bool) of_size sigma size_t dev (a b : tensor R) m n k A B,
  given one a b None m n k A B (repeat one k) -> size_t <> 0%nat -> schedule sigma -> (forall i j, (i < m)%nat -> (j < k)%nat -> lt (A i j) zero = false) -> (forall i j, (i < n)%nat -> (j < k)%nat -> lt (B i j) zero = false) ->
  let term p m := if lt zero p then [mul p (ln (div p m))] else [] in
  gives (cdist (jensen_shannon zero two add mul div sqrt ln inf lt le) zero one add of_size sigma size_t dev a b None) dev m n (fun i j =>
    let su := sum_list zero add (row k A i) in let sv := sum_list zero add (row k B j) in
    if le su zero && le sv zero then inf
    else sqrt (div (sum_list zero add (flat_map (fun x => let p := div (fst x) su in let q := div (snd x) sv in let m := div (add p q) two in term p m ++ term q m) (combine (row k A i) (row k B j)))) two)).
Proof. exact l_cdist_jensen_shannon. Qed.
Example C72_jensen_shannon_example : forall i j, (i < 2)%nat -> (j < 3)%nat -> (dx_A i j <? 0) = false.
Proof. intros i j _ _. unfold dx_A. lia. Qed.
Print Assumptions C72_jensen_shannon.

(** C72: with a commutative addition and symmetric absolute differences, the distances by differences and Hamming's are symmetric: cdist(b, a) is the transpose of cdist(a, b). *)
Theorem C72_differences_symmetric : forall (T R : Type) (zero one : R) (add mul div max : R -> R -> R) (is_zero : R -> bool) (subt addt : T -> T -> T) (abs square : T -> R) (sqrt : R -> R) (powf : R -> R -> R) (p : R) (eqt : T -> T -> bool) of_size size_t dev (a b : tensor T) (w : option (tensor R)) m n k A B ws,
  given one a b w m n k A B ws -> size_t <> 0%nat -> (forall x y, add x y = add y x) -> (forall x y, abs (subt x y) = abs (subt y x)) -> (forall x y, square (subt x y) = square (subt y x)) -> (forall x y, addt x y = addt y x) -> (forall x y, eqt x y = eqt y x) ->
  let wx := weighted w in
  let symmetric {S} (M : metric T R unit S R) := forall t t', cdist_serial M zero one add of_size size_t dev a b w = Ok t -> cdist_serial M zero one add of_size size_t dev b a w = Ok t' -> forall i j, (i < m)%nat -> (j < n)%nat -> at_ t [i; j] = at_ t' [j; i] in
  symmetric (euclidean zero add mul subt wx square sqrt) /\ symmetric (sq_euclidean zero add mul subt wx square) /\ symmetric (city_block zero add mul subt abs wx) /\ symmetric (minkowski zero one add mul div subt abs wx powf p) /\
  symmetric (canberra zero add mul div is_zero subt abs wx) /\ symmetric (chebyshev zero max is_zero subt abs wx) /\ symmetric (bray_curtis zero add mul div subt addt abs wx) /\ symmetric (hamming zero add div eqt).
Proof. exact l_cdist_differences_symmetric. Qed.
Example C72_differences_symmetric_example : (forall x y, Z.abs (x - y) = Z.abs (y - x)) /\ (forall x y : Z, (x =? y) = (y =? x)).
Proof. split; intros; lia. Qed.
Print Assumptions C72_differences_symmetric.

(** C72: with a commutative multiplication all dissimilarities of flags are symmetric (Yule's counts change places). *)
Theorem C72_booleans_symmetric : forall (R : Type) (zero one two : R) (add sub mul div : R -> R -> R) (is_zero : R -> bool) of_size size_t dev (a b : tensor bool) (w : option (tensor R)) m n k A B ws,
  given one a b w m n k A B ws -> size_t <> 0%nat -> (forall x y, mul x y = mul y x) ->
  let symmetric {S} (M : metric bool R unit S R) := forall t t', cdist_serial M zero one add of_size size_t dev a b w = Ok t -> cdist_serial M zero one add of_size size_t dev b a w = Ok t' -> forall i j, (i < m)%nat -> (j < n)%nat -> at_ t [i; j] = at_ t' [j; i] in
  symmetric (jaccard zero add div) /\ symmetric (yule zero two add mul div is_zero) /\ symmetric (dice zero two add mul div) /\ symmetric (rogers_tanimoto zero two add mul div) /\ symmetric (sokal_sneath zero two add mul div) /\ symmetric (russell_rao zero add sub div).
Proof. exact l_cdist_booleans_symmetric. Qed.
Print Assumptions C72_booleans_symmetric.
