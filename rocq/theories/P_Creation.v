(** Facts about diagonals of matrices and constant storages (C47, C58). *)
From Verif Require Import Base Spec Spec_Concat Spec_Creation P_Index P_List M_Layout M_Rearr M_Iter M_Kernel M_Tensor M_Matmul M_Concat M_Creation P_Layout P_Bounds P_Contig P_Strides P_Iter P_Rearr Q_Rearr P_Kernel Q_Kernel P_Tensor Q_Tensor P_Tri3.
Local Open Scope Z_scope.

Lemma good_1d n s off : nonneg (mkLayout [n] [s] off) -> ((n <> 0)%nat -> 0 <= off) -> good (mkLayout [n] [s] off).
Proof. intros N O. split; [split; [reflexivity|cbn; intro H; apply O; lia]|]. split; auto.
  unfold check_strides. cbn [length l_shape l_stride Nat.eqb negb]. destruct (_ || _); auto. unfold sorted_axes. cbn [l_shape l_stride combine filter fst].
  destruct (1 <? n)%nat; [|reflexivity]. cbn. destruct (Z.abs s =? 0) eqn:E; cbn [andb]; auto. replace (0 <? Z.abs s) with true by lia. reflexivity. Qed.
Lemma valid2 m n i j : valid [m; n] [i; j] <-> (i < m /\ j < n)%nat.
Proof. rewrite !valid_cons. split; [intros (? & ? & _); auto|]. intros [? ?]. repeat split; auto. constructor. Qed.
Lemma valid2_inv m n ix : valid [m; n] ix -> exists i j, ix = [i; j] /\ (i < m)%nat /\ (j < n)%nat.
Proof. intro V. apply valid_cons_inv in V as (i & r & -> & Hi & V). apply valid_cons_inv in V as (j & r' & -> & Hj & V). apply valid_nil in V as ->. eauto. Qed.
Lemma valid1_inv n ix : valid [n] ix -> exists i, ix = [i] /\ (i < n)%nat.
Proof. intro V. apply valid_cons_inv in V as (i & r & -> & Hi & V). apply valid_nil in V as ->. eauto. Qed.
Lemma valid1 n i : valid [n] [i] <-> (i < n)%nat.
Proof. rewrite valid_cons. split; [tauto|]. intro. split; auto. constructor. Qed.

Lemma diag2 l m n k : good l -> l_shape l = [m; n] -> diag_ok m n k ->
  exists l', diagonal l (Some k) (Some 0) (Some 1) = Ok l' /\ good l' /\ l_shape l' = [diag_len m n k] /\
    forall p, (p < diag_len m n k)%nat -> addr l' [p] = addr l [p + diag_row k; p + diag_col k]%nat.
Proof. intros (W & N & _) S [H1 H2]. destruct l as [sh st off]. cbn [l_shape] in S. subst sh. destruct W as [W1 W2]. cbn [l_shape l_stride l_offset] in *. destruct st as [|t1 [|t2 [|]]]; try discriminate. clear W1.
  unfold diagonal, ndim. cbn [l_shape l_stride l_offset length Nat.ltb Nat.leb]. change (check_axis 0 2) with (Ok 0%nat). change (check_axis 1 2) with (Ok 1%nat). cbn [bind nth]. cbv zeta.
  change (drop2 [m; n] 0 1) with (@nil nat). change (drop2 [t1; t2] 0 1) with (@nil Z). cbn [app].
  assert (X : exists off', (if (- Z.of_nat m + 1 <=? k) && (k <? 0) then (off + t1 * - k, as_usize (Z.min (Z.of_nat m - - k) (Z.of_nat n))) else if (0 <=? k) && (k <? Z.of_nat m) then (off + t2 * k, as_usize (Z.min (Z.of_nat n - k) (Z.of_nat m))) else (off, 0)) = (off', Z.of_nat (diag_len m n k)) /\ ((diag_len m n k <> 0)%nat -> off' = off + t1 * Z.of_nat (diag_row k) + t2 * Z.of_nat (diag_col k))).
  { unfold diag_len, diag_row, diag_col. destruct ((- Z.of_nat m + 1 <=? k) && (k <? 0)) eqn:E1; [|destruct ((0 <=? k) && (k <? Z.of_nat m)) eqn:E2].
    - rewrite as_usize_nonneg by lia. eexists. split; [apply f_equal2; [reflexivity|lia]|]. intros _. rewrite (Z2Nat.id (- k)) by lia. replace (Z.to_nat k) with 0%nat by lia. lia.
    - rewrite as_usize_nonneg by lia. eexists. split; [apply f_equal2; [reflexivity|lia]|]. intros _. rewrite (Z2Nat.id k) by lia. replace (Z.to_nat (- k)) with 0%nat by lia. lia.
    - eexists. split; [apply f_equal2; [reflexivity|lia]|]. lia. }
  destruct X as (off' & -> & EO). rewrite Nat2Z.id. set (dd := diag_len m n k) in *.
  assert (A : forall p, (p < dd)%nat -> addr (mkLayout [dd] [t1 + t2] off') [p] = addr (mkLayout [m; n] [t1; t2] off) [p + diag_row k; p + diag_col k]%nat /\ valid [m; n] [p + diag_row k; p + diag_col k]%nat).
  { intros p Hp. split; [|apply valid2; unfold dd, diag_len in Hp; lia]. unfold addr. cbn [l_offset l_stride dot]. rewrite EO by lia. lia. }
  assert (G : good (mkLayout [dd] [t1 + t2] off')).
  { apply good_1d.
    - intros ix V. apply valid1_inv in V as (p & -> & Hp). destruct (A p Hp) as [-> V]. now apply N.
    - intro D. assert (Hd : (0 < dd)%nat) by lia. destruct (A 0%nat Hd) as [E V]. apply N in V. rewrite <- E in V. unfold addr in V. cbn [l_offset l_stride dot] in V. lia. }
  exists (mkLayout [dd] [t1 + t2] off'). split; [now apply layout_new_good|]. split; auto. split; auto. intros p Hp. now apply A. Qed.

Lemma peek_repeat {T} (x : T) n p : 0 <= p < Z.of_nat n -> peek (repeat x n) p = Some x.
Proof. intro H. unfold peek. replace (p <? 0) with false by lia. rewrite (nth_error_nth' _ x) by (rewrite repeat_length; lia). now rewrite nth_repeat. Qed.
Lemma constant {T} l (x : T) n : good l -> inside l n -> tensor_ok (mkTensor (repeat x n) l) /\ forall ix, valid (l_shape l) ix -> at_ (mkTensor (repeat x n) l) ix = Some x.
Proof. intros G I. split; [apply tensor_ok_good; cbn [t_layout t_data]; now rewrite repeat_length|]. intros ix V. unfold at_, elem. cbn [t_layout t_data]. apply peek_repeat. now apply I. Qed.

(** Writing the diagonal of a matrix: what [fill] and [assign] leave behind. *)
Lemma diag_written {T} l l' m n k (c c' : list T) (f : nat -> T) : good l -> injective l -> l_shape l = [m; n] -> l_shape l' = [diag_len m n k] ->
  (forall p, (p < diag_len m n k)%nat -> addr l' [p] = addr l [p + diag_row k; p + diag_col k]%nat) -> untouched_outside l' c c' ->
  (forall p, (p < diag_len m n k)%nat -> elem c' l' [p] = Some (f p)) ->
  forall i j, (i < m)%nat -> (j < n)%nat -> elem c' l [i; j] = if Z.of_nat j - Z.of_nat i =? k then Some (f (Nat.min i j)) else elem c l [i; j].
Proof. intros G J S S' A [_ U] E i j Hi Hj. unfold elem in *. destruct (Z.eqb_spec (Z.of_nat j - Z.of_nat i) k) as [K|K].
  - assert (Hp : (Nat.min i j < diag_len m n k)%nat) by (unfold diag_len, diag_row, diag_col; lia). rewrite <- E by auto. f_equal. rewrite A by auto. f_equal. unfold diag_row, diag_col. f_equal; [lia|f_equal; lia].
  - apply U. intros jx V Ea. rewrite S' in V. apply valid1_inv in V as (p & -> & Hp). rewrite A in Ea by auto. apply J in Ea; rewrite ?S.
    + injection Ea as E1 E2. unfold diag_row, diag_col in *. lia.
    + apply valid2. unfold diag_len in Hp. lia.
    + now apply valid2. Qed.
