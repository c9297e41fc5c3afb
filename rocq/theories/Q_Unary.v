(** Property lemmas about the unary operators of tensors (C123). *)
From Verif Require Import Base Spec Spec_Unary P_Index P_List M_Layout P_Layout M_Rearr M_Iter P_Iter P_Rearr M_Kernel P_Kernel Q_Kernel M_Tensor P_Tensor Q_Tensor M_Unary.
Local Open Scope Z_scope.

Lemma unwound_some {A} (d : list A) : unwound (map Some d) = Ok d.
Proof. exact (assume_some d). Qed.
Lemma unwound_cases {A} (c : list (option A)) : (exists d, c = map Some d /\ unwound c = Ok d) \/ (In None c /\ unwound c = Panic).
Proof. induction c as [|[x|] c IH].
  - left. now exists [].
  - destruct IH as [(d & -> & E)|[I E]].
    + left. exists (x :: d). split; auto. exact (unwound_some (x :: d)).
    + right. split; [now right|]. unfold unwound in *. cbn. now rewrite E.
  - right. split; [now left|reflexivity]. Qed.
Lemma peek_some {A} (d : list A) p : peek (map Some d) p = option_map Some (peek d p).
Proof. unfold peek. destruct (p <? 0); auto. apply nth_error_map. Qed.
Lemma peek_in {A} (c : list A) x : In x c -> exists p, 0 <= p < Z.of_nat (length c) /\ peek c p = Some x.
Proof. intro I. apply In_nth_error in I as [n E]. exists (Z.of_nat n). assert (n < length c)%nat by (apply nth_error_Some; congruence). split; [lia|]. unfold peek. destruct (Z.of_nat n <? 0) eqn:?; [lia|]. now rewrite Nat2Z.id. Qed.
Lemma peek_In {A} (c : list A) p x : peek c p = Some x -> In x c.
Proof. unfold peek. destruct (p <? 0); [discriminate|]. apply nth_error_In. Qed.

Lemma l_unary_ref : forall (A B : Type) k dflt (h : A -> option B) (a : tensor A), tensor_ok a ->
  match unary_ref k dflt h a with
  | Ok c => tensor_ok c /\ t_shape c = t_shape a /\ forall ix, valid (t_shape a) ix -> exists x y, at_ a ix = Some x /\ h x = Some y /\ at_ c ix = Some y
  | Err _ => False
  | Panic => exists ix x, valid (t_shape a) ix /\ at_ a ix = Some x /\ h x = None
  end.
Proof. intros A B k dflt h a Ha. pose proof Ha as Ha'. apply tensor_ok_good in Ha' as [Ga _].
  destruct (copy_layout_good k dflt (t_layout a) OK Ga) as (lc' & E' & Gc & O & S' & J & Cv); auto.
  destruct (fresh_copy k dflt a h OK Ha) as (lc & d & E & (b0 & Eb) & Ek & T & S & Ld & H); auto.
  assert (lc' = lc) as -> by congruence. clear E'.
  unfold unary_ref, op_muta_refb. rewrite E. cbn [bind]. rewrite Eb. cbn [bind snd].
  destruct (joint_kernel k [lc; t_layout a] _ _) as [c| |]; cbn [bind] in *; try discriminate. destruct (assume_init c) as [c'| |]; cbn [bind] in *; try discriminate.
  rewrite Ek. cbn [bind t_data]. destruct (unwound_cases d) as [(d' & -> & ->)|[I ->]]; cbn [bind].
  - apply tensor_ok_good in T as [_ I]. cbn [t_data t_layout] in I. rewrite map_length in I. split; [apply tensor_ok_good; auto|]. split; auto. intros ix V. destruct (H ix V) as (x & Hx & Hy).
    unfold elem in Hy. rewrite peek_some in Hy. unfold at_ at 2, elem. cbn [t_data t_layout]. destruct (peek d' (addr lc ix)) as [y|]; [|discriminate]. exists x, y. injection Hy as Hy. auto.
  - apply peek_in in I as (p & Hp & E0). rewrite Ld in Hp. apply Cv in Hp as (ix & V & <-). rewrite S' in V. destruct (H ix V) as (x & Hx & Hy). exists ix, x. split; auto. split; auto. unfold elem in Hy. congruence. Qed.
Lemma l_unary_owned : forall (A : Type) k (h : A -> option A) (a : tensor A), tensor_ok a ->
  match unary_owned k h a with
  | Ok c => t_layout c = t_layout a /\ untouched_outside (t_layout a) (t_data a) (t_data c) /\
      forall ix, valid (t_shape a) ix -> exists x y, at_ a ix = Some x /\ h x = Some y /\ at_ c ix = Some y
  | Err _ => False
  | Panic => exists ix x, valid (t_shape a) ix /\ at_ a ix = Some x /\ h x = None
  end.
Proof. intros A k h [da la] Ha. pose (a' := mkTensor (map Some da) la).
  assert (Ta : tensor_ok a'). { unfold a'. destruct Ha as [? I]. split; auto. cbn [t_data t_layout] in *. now rewrite map_length. }
  destruct (l_inplace_unary (option A) k (fun x => match x with Some v => h v | None => None end) a' Ta) as (c & E & L & [U1 U2] & H).
  unfold op_muta_func in E. unfold unary_owned. cbn [t_data t_layout] in *. cbn [a' t_data t_layout] in E. destruct (op_muta k (map Some da) la _) as [d| |]; cbn [bind] in *; try discriminate. injection E as <-.
  unfold a', t_shape, at_, elem in *. cbn [t_data t_layout] in *. rewrite map_length in U1. destruct (unwound_cases d) as [(d' & -> & ->)|[I ->]]; cbn [bind].
  - rewrite map_length in U1. cbn [t_data t_layout]. split; auto. split.
    + split; auto. intros p Hp. specialize (U2 p Hp). rewrite !peek_some in U2. destruct (peek d' p), (peek da p); cbn in U2; congruence.
    + intros ix V. destruct (H ix V) as (x & Hx & Hy). rewrite peek_some in Hx, Hy. destruct (peek da (addr la ix)) as [x0|]; [|discriminate]. injection Hx as <-. destruct (peek d' (addr la ix)) as [y|]; [|discriminate]. injection Hy as Hy. exists x0, y. auto.
  - apply peek_in in I as (p & Hp & E0).
    assert (D : (exists ix, valid (l_shape la) ix /\ addr la ix = p) \/ ~ (exists ix, valid (l_shape la) ix /\ addr la ix = p)).
    { destruct (in_dec Z.eq_dec p (addrs RowMajor la)) as [I|I]; unfold addrs in I.
      - left. apply in_map_iff in I as (ix & Ei & I). exists ix. split; auto. now apply (P_Iter.in_enum RowMajor).
      - right. intros (ix & V & <-). apply I. apply in_map. now apply (P_Iter.in_enum RowMajor). }
    destruct D as [(ix & V & <-)|D].
    + destruct (H ix V) as (x & Hx & Hy). rewrite peek_some in Hx. destruct (peek da (addr la ix)) as [x0|] eqn:P0; [|discriminate]. injection Hx as <-. exists ix, x0. split; auto. split; [exact P0|congruence].
    + exfalso. assert (X : peek d p = peek (map Some da) p). { apply U2. intros ix V Ea. apply D. eauto. } rewrite E0, peek_some in X. destruct (peek da p); cbn in X; congruence. Qed.

(** ** numbers *)
Lemma pow_pred w : 0 < w -> 2 ^ w = 2 * 2 ^ (w - 1) /\ 0 < 2 ^ (w - 1).
Proof. intro H. split; [|apply Z.pow_pos_nonneg; lia]. replace w with (Z.succ (w - 1)) at 1 by lia. rewrite Z.pow_succ_r by lia. lia. Qed.
Lemma neg_cases checks w x : 0 < w -> is_int (Signed w) x ->
  match int_neg checks w x with Some y => negative_of w x y /\ (checks = true -> x <> lowest w) | None => checks = true /\ x = lowest w end.
Proof. intros Hw. destruct (pow_pred w Hw) as [P Q]. unfold is_int, int_neg, negative_of, is_int, lowest. rewrite P. generalize dependent (2 ^ (w - 1)). intros m _ Q X. destruct (x =? - m) eqn:E.
  - apply Z.eqb_eq in E. subst. destruct checks; [auto|]. split; [|discriminate]. split; [lia|]. replace (- m + - m) with ((-1) * (2 * m)) by lia. apply Z.mod_mul. lia.
  - apply Z.eqb_neq in E. split; [|auto]. split; [lia|]. rewrite Z.add_opp_diag_r. apply Z.mod_0_l. lia. Qed.
Lemma neg_twice checks w x y : 0 < w -> is_int (Signed w) x -> int_neg checks w x = Some y -> int_neg checks w y = Some x.
Proof. intros Hw. destruct (pow_pred w Hw) as [_ Q]. unfold is_int, int_neg. generalize dependent (2 ^ (w - 1)). intros m Q X. destruct (x =? - m) eqn:E.
  - destruct checks; [discriminate|]. intros [= <-]. now rewrite E.
  - intros [= <-]. apply Z.eqb_neq in E. destruct (- x =? - m) eqn:E2; [apply Z.eqb_eq in E2; lia|]. f_equal. lia. Qed.
Lemma not_spec t x : 0 < width t -> is_int t x -> exists y, int_not t x = Some y /\ complement_of t x y.
Proof. intros Hw X. eexists. split; [reflexivity|]. unfold complement_of, is_int, width in *. destruct t as [w|w].
  - split; [lia|]. intros i Hi. replace (- x - 1) with (Z.lnot x) by (unfold Z.lnot; lia). apply Z.lnot_spec. lia.
  - split; [lia|]. intros i Hi. replace (2 ^ w - 1 - x) with ((Z.lnot x) mod 2 ^ w).
    + rewrite Z.mod_pow2_bits_low by lia. apply Z.lnot_spec. lia.
    + symmetry. apply (Z.mod_unique _ _ (-1)); [left; lia|]. unfold Z.lnot. lia. Qed.
Lemma not_twice t x y : int_not t x = Some y -> int_not t y = Some x.
Proof. destruct t; unfold int_not; intros [= <-]; f_equal; lia. Qed.

(** ** operators *)
Lemma l_neg_ref : forall k dflt checks w (a : tensor Z), 0 < w -> tensor_ok a -> (forall ix x, valid (t_shape a) ix -> at_ a ix = Some x -> is_int (Signed w) x) ->
  match neg_ref k dflt checks w a with
  | Ok c => (checks = true -> forall ix, valid (t_shape a) ix -> at_ a ix <> Some (lowest w)) /\ tensor_ok c /\ t_shape c = t_shape a /\
      forall ix, valid (t_shape a) ix -> exists x y, at_ a ix = Some x /\ at_ c ix = Some y /\ negative_of w x y
  | Err _ => False
  | Panic => checks = true /\ exists ix, valid (t_shape a) ix /\ at_ a ix = Some (lowest w)
  end.
Proof. intros k dflt checks w a Hw Ha X. unfold neg_ref. pose proof (l_unary_ref Z Z k dflt (int_neg checks w) a Ha) as H. destruct (unary_ref _ _ _ a) as [c| |]; auto.
  - destruct H as (T & S & H). split; [|split; [exact T|split; [exact S|]]].
    + intros C ix V E. destruct (H ix V) as (x & y & Hx & Hn & _). pose proof (neg_cases checks w x Hw (X ix x V Hx)) as N. rewrite Hn in N. destruct N as [_ N]. apply (N C). congruence.
    + intros ix V. destruct (H ix V) as (x & y & Hx & Hn & Hy). pose proof (neg_cases checks w x Hw (X ix x V Hx)) as N. rewrite Hn in N. exists x, y. intuition.
  - destruct H as (ix & x & V & Hx & Hn). pose proof (neg_cases checks w x Hw (X ix x V Hx)) as N. rewrite Hn in N. destruct N as [C ->]. split; eauto. Qed.
Lemma l_neg_owned : forall k checks w (a : tensor Z), 0 < w -> tensor_ok a -> (forall ix x, valid (t_shape a) ix -> at_ a ix = Some x -> is_int (Signed w) x) ->
  match neg_owned k checks w a with
  | Ok c => (checks = true -> forall ix, valid (t_shape a) ix -> at_ a ix <> Some (lowest w)) /\ t_layout c = t_layout a /\ untouched_outside (t_layout a) (t_data a) (t_data c) /\
      forall ix, valid (t_shape a) ix -> exists x y, at_ a ix = Some x /\ at_ c ix = Some y /\ negative_of w x y
  | Err _ => False
  | Panic => checks = true /\ exists ix, valid (t_shape a) ix /\ at_ a ix = Some (lowest w)
  end.
Proof. intros k checks w a Hw Ha X. unfold neg_owned. pose proof (l_unary_owned Z k (int_neg checks w) a Ha) as H. destruct (unary_owned _ _ a) as [c| |]; auto.
  - destruct H as (T & S & H). split; [|split; [exact T|split; [exact S|]]].
    + intros C ix V E. destruct (H ix V) as (x & y & Hx & Hn & _). pose proof (neg_cases checks w x Hw (X ix x V Hx)) as N. rewrite Hn in N. destruct N as [_ N]. apply (N C). congruence.
    + intros ix V. destruct (H ix V) as (x & y & Hx & Hn & Hy). pose proof (neg_cases checks w x Hw (X ix x V Hx)) as N. rewrite Hn in N. exists x, y. intuition.
  - destruct H as (ix & x & V & Hx & Hn). pose proof (neg_cases checks w x Hw (X ix x V Hx)) as N. rewrite Hn in N. destruct N as [C ->]. split; eauto. Qed.
Lemma l_not : forall k dflt t (a : tensor Z), 0 < width t -> tensor_ok a -> (forall ix x, valid (t_shape a) ix -> at_ a ix = Some x -> is_int t x) ->
  exists b c, not_ref k dflt t a = Ok b /\ not_owned k t a = Ok c /\ tensor_ok b /\ t_shape b = t_shape a /\ t_layout c = t_layout a /\ untouched_outside (t_layout a) (t_data a) (t_data c) /\
    forall ix, valid (t_shape a) ix -> exists x y, at_ a ix = Some x /\ at_ b ix = Some y /\ at_ c ix = Some y /\ complement_of t x y.
Proof. intros k dflt t a Hw Ha X. unfold not_ref, not_owned. pose proof (l_unary_ref Z Z k dflt (int_not t) a Ha) as H. pose proof (l_unary_owned Z k (int_not t) a Ha) as H'.
  destruct (unary_ref _ _ _ a) as [b| |]; [|contradiction|destruct H as (? & ? & _ & _ & [=])]. destruct (unary_owned _ _ a) as [c| |]; [|contradiction|destruct H' as (? & ? & _ & _ & [=])].
  destruct H as (T & S & H), H' as (L & U & H'). exists b, c. do 6 (split; auto). intros ix V. destruct (H ix V) as (x & y & Hx & Hn & Hy), (H' ix V) as (x' & y' & Hx' & Hn' & Hy'). assert (x' = x) as -> by congruence. assert (y' = y) as -> by congruence.
  destruct (not_spec t x Hw (X ix x V Hx)) as (z & Hz & Q). assert (z = y) as -> by congruence. exists x, y. auto. Qed.
Lemma twice (h : Z -> option Z) k dflt (P : Z -> Prop) a b : (forall x y, P x -> h x = Some y -> h y = Some x) -> tensor_ok a -> (forall ix x, valid (t_shape a) ix -> at_ a ix = Some x -> P x) -> unary_ref k dflt h a = Ok b ->
  exists c d, unary_ref k dflt h b = Ok c /\ unary_owned k h b = Ok d /\ t_shape c = t_shape a /\ t_shape d = t_shape a /\ forall ix, valid (t_shape a) ix -> at_ c ix = at_ a ix /\ at_ d ix = at_ a ix.
Proof. intros Hh Ha X E. pose proof (l_unary_ref Z Z k dflt h a Ha) as H. rewrite E in H. destruct H as (T & S & H).
  assert (G : forall ix y, valid (t_shape a) ix -> at_ b ix = Some y -> exists x, at_ a ix = Some x /\ h y = Some x).
  { intros ix y V Hb. destruct (H ix V) as (x & y' & Hx & Hn & Hy). assert (y' = y) as -> by congruence. exists x. split; auto. eapply Hh; eauto. }
  pose proof (l_unary_ref Z Z k dflt h b T) as H1. pose proof (l_unary_owned Z k h b T) as H2. rewrite S in H1, H2.
  destruct (unary_ref k dflt h b) as [c| |]; [|contradiction|]. 2:{ destruct H1 as (ix & x & V & Hx & Hn). destruct (G ix x V Hx) as (? & _ & ?). congruence. }
  destruct (unary_owned k h b) as [d| |]; [|contradiction|]. 2:{ destruct H2 as (ix & x & V & Hx & Hn). destruct (G ix x V Hx) as (? & _ & ?). congruence. }
  destruct H1 as (_ & S1 & H1), H2 as (L2 & _ & H2). exists c, d. do 3 (split; auto). split; [unfold t_shape in *; now rewrite L2|]. intros ix V. split.
  - destruct (H1 ix V) as (y & z & Hy & Hn & ->). destruct (G ix y V Hy) as (x & -> & ?). congruence.
  - destruct (H2 ix V) as (y & z & Hy & Hn & ->). destruct (G ix y V Hy) as (x & -> & ?). congruence. Qed.
Lemma l_neg_neg : forall k dflt checks w (a b : tensor Z), 0 < w -> tensor_ok a -> (forall ix x, valid (t_shape a) ix -> at_ a ix = Some x -> is_int (Signed w) x) -> neg_ref k dflt checks w a = Ok b ->
  exists c d, neg_ref k dflt checks w b = Ok c /\ neg_owned k checks w b = Ok d /\ t_shape c = t_shape a /\ t_shape d = t_shape a /\ forall ix, valid (t_shape a) ix -> at_ c ix = at_ a ix /\ at_ d ix = at_ a ix.
Proof. intros k dflt checks w a b Hw Ha X E. eapply (twice (int_neg checks w) k dflt (is_int (Signed w))); eauto. intros x y. now apply neg_twice. Qed.
Lemma l_not_not : forall k dflt t (a b : tensor Z), tensor_ok a -> not_ref k dflt t a = Ok b ->
  exists c d, not_ref k dflt t b = Ok c /\ not_owned k t b = Ok d /\ t_shape c = t_shape a /\ t_shape d = t_shape a /\ forall ix, valid (t_shape a) ix -> at_ c ix = at_ a ix /\ at_ d ix = at_ a ix.
Proof. intros k dflt t a b Ha E. eapply (twice (int_not t) k dflt (fun _ => True)); eauto. intros x y _. apply not_twice. Qed.
