(** Proofs about preferred memory orders and Debug texts. *)
From Coq Require Import Ascii String DecimalString Decimal DecimalFacts DecimalNat DecimalZ.
From Verif Require Import Base Spec Spec_Format Spec_Debug M_Layout M_Tensor M_Format M_Debug P_Tensor Q_Layout Q_Format.
From Coq Require Import List.
Local Open Scope nat_scope.
Local Open Scope list_scope.

(** preferred orders *)
Definition ascending (L : list (Z * nat)) : Prop := forall j k s d t e, j < k -> nth_error L j = Some (s, d) -> nth_error L k = Some (t, e) -> d <> 1 -> e <> 1 -> (s <= t)%Z.
Definition above (x : Z) (L : list (Z * nat)) : Prop := forall k s d, nth_error L k = Some (s, d) -> d <> 1 -> (x <= s)%Z.
Lemma loop_pos : forall L last, (1 <= last)%Z -> prefer_loop L last = true <-> above last L /\ ascending L.
Proof.
  induction L as [|[s d] L IH]; intros last Hl; cbn [prefer_loop].
  - split; auto. intros _. split; intros [|k]; intros; discriminate.
  - destruct (Nat.eqb_spec d 1) as [->|Hd]; cbn [negb].
    + replace (last =? 0)%Z with false by (symmetry; apply Z.eqb_neq; lia). rewrite IH by auto. split; intros [A B]; split.
      * intros [|k] s' d' E N; cbn in E; [injection E as <- <-; lia|]. eapply A; eauto.
      * intros [|j] [|k] s' d' t e J E1 E2 N1 N2; cbn in E1, E2; try lia; [injection E1 as <- <-; lia|]. eapply (B j k); eauto; lia.
      * intros k s' d' E N. apply (A (S k) s' d'); auto.
      * intros j k s' d' t e J E1 E2 N1 N2. apply (B (S j) (S k) s' d' t e); auto; lia.
    + destruct (Z.ltb_spec s last) as [Hs|Hs].
      * split; [discriminate|]. intros [A _]. specialize (A 0 s d eq_refl Hd). lia.
      * replace (last =? 0)%Z with false by (symmetry; apply Z.eqb_neq; lia). cbn [andb]. rewrite IH by lia. split; intros [A B]; split.
        -- intros [|k] s' d' E N; cbn in E; [injection E as <- <-; lia|]. pose proof (A k s' d' E N). lia.
        -- intros [|j] [|k] s' d' t e J E1 E2 N1 N2; cbn in E1, E2; try lia; [injection E1 as <- <-; eapply A; eauto|]. eapply (B j k); eauto; lia.
        -- intros k s' d' E N. apply (B 0 (S k) s d s' d'); auto; lia.
        -- intros j k s' d' t e J E1 E2 N1 N2. apply (B (S j) (S k) s' d' t e); auto; lia.
Qed.
Lemma loop_zero L : prefer_loop L 0 = true <-> above 1 L /\ ascending L /\ (forall s d, nth_error L 0 = Some (s, d) -> d <> 1 -> s = 1%Z).
Proof.
  destruct L as [|[s d] L]; cbn [prefer_loop].
  - split; auto. intros _. split; [intros [|k]; discriminate|]. split; [intros [|j]; discriminate|discriminate].
  - destruct (Nat.eqb_spec d 1) as [->|Hd]; cbn [negb Z.eqb andb].
    + rewrite loop_pos by lia. split.
      * intros [A B]. split; [|split].
        -- intros [|k] s' d' E N; cbn in E; [injection E as <- <-; lia|]. eapply A; eauto.
        -- intros [|j] [|k] s' d' t e J E1 E2 N1 N2; cbn in E1, E2; try lia; [injection E1 as <- <-; lia|]. eapply (B j k); eauto; lia.
        -- cbn. intros s' d' [= <- <-]. lia.
      * intros (A & B & _). split; [intros k s' d' E N; apply (A (S k) s' d'); auto|]. intros j k s' d' t e J E1 E2 N1 N2. apply (B (S j) (S k) s' d' t e); auto; lia.
    + destruct (Z.ltb_spec s 0) as [Hs|Hs].
      * split; [discriminate|]. intros (A & _). specialize (A 0 s d eq_refl Hd). lia.
      * destruct (Z.eqb_spec s 1) as [->|H1]; cbn [negb].
        -- rewrite loop_pos by lia. split.
           ++ intros [A B]. split; [|split].
              ** intros [|k] s' d' E N; cbn in E; [injection E as <- <-; lia|]. eapply A; eauto.
              ** intros [|j] [|k] s' d' t e J E1 E2 N1 N2; cbn in E1, E2; try lia; [injection E1 as <- <-; eapply A; eauto|]. eapply (B j k); eauto; lia.
              ** cbn. now intros s' d' [= <- <-].
           ++ intros (A & B & _). split; [intros k s' d' E N; apply (A (S k) s' d'); auto|]. intros j k s' d' t e J E1 E2 N1 N2. apply (B (S j) (S k) s' d' t e); auto; lia.
        -- split; [discriminate|]. intros (_ & _ & C). specialize (C s d eq_refl Hd). lia.
Qed.
Lemma nth_combine : forall (A B : Type) (xs : list A) (ys : list B) k a b, nth_error (combine xs ys) k = Some (a, b) <-> nth_error xs k = Some a /\ nth_error ys k = Some b.
Proof.
  induction xs as [|x xs IH]; intros [|y ys] [|k] a b; cbn; try (split; [discriminate|intros [? ?]; discriminate]).
  - split; [intros [= <- <-]; auto|intros [[= <-] [= <-]]; auto].
  - apply IH.
Qed.
Lemma nth_rev : forall (A : Type) (xs : list A) k, k < length xs -> nth_error (rev xs) k = nth_error xs (length xs - 1 - k).
Proof.
  intros A xs k H. destruct xs as [|d xs]; [cbn in H; lia|]. rewrite (nth_error_nth' (rev (d :: xs)) d) by now rewrite rev_length.
  rewrite (nth_error_nth' (d :: xs) d) by lia. f_equal. rewrite rev_nth by auto. f_equal. lia.
Qed.
Lemma ndim_size l : size (l_shape l) <> 0 -> (ndim l =? 0) || (l_size l =? 0) = true -> l_shape l = [].
Proof. intros H. unfold l_size, ndim. apply Nat.eqb_neq in H. rewrite H, orb_false_r. intro E. apply Nat.eqb_eq in E. now destruct (l_shape l). Qed.
Lemma l_prefer : forall l, wf l -> size (l_shape l) <> 0 -> (f_prefer l = true <-> column_preferred l) /\ (c_prefer l = true <-> row_preferred l).
Proof.
  intros l [HL _] Hs. unfold f_prefer, c_prefer. destruct ((ndim l =? 0) || (l_size l =? 0)) eqn:E.
  - apply ndim_size in E; auto. unfold column_preferred, row_preferred, long_axis. rewrite E. cbn [length Nat.sub].
    assert (X : forall k (d : nat), nth_error [] k = Some d -> False) by (intros [|k]; discriminate).
    split; (split; [intros _|auto]); (split; [|split]); intros; exfalso;
      repeat match goal with H : _ /\ _ |- _ => destruct H end; eauto.
  - split.
    + rewrite loop_zero. unfold above, ascending, column_preferred, long_axis. split.
      * intros (A & B & C). split; [|split].
        -- intros k d s (E1 & E2 & N). apply (A k s d); auto. now apply nth_combine.
        -- intros j k d e s t J (E1 & E2 & N) (E3 & E4 & N'). apply (B j k s d t e); auto; now apply nth_combine.
        -- intros d s (E1 & E2 & N). apply (C s d); auto. now apply nth_combine.
      * intros (A & B & C). split; [|split].
        -- intros k s d E1 N. apply nth_combine in E1. apply (A k d s). tauto.
        -- intros j k s d t e J E1 E2 N N'. apply nth_combine in E1. apply nth_combine in E2. apply (B j k d e s t); tauto.
        -- intros s d E1 N. apply nth_combine in E1. apply (C d s). tauto.
    + assert (LC : length (combine (l_stride l) (l_shape l)) = length (l_shape l)) by (rewrite combine_length; lia).
      assert (R : forall k s d, nth_error (rev (combine (l_stride l) (l_shape l))) k = Some (s, d) <-> k < length (l_shape l) /\ nth_error (l_shape l) (length (l_shape l) - 1 - k) = Some d /\ nth_error (l_stride l) (length (l_shape l) - 1 - k) = Some s).
      { intros k s d. split.
        - intro H. assert (k < length (l_shape l)). { rewrite <- LC, <- rev_length. apply nth_error_Some. congruence. } split; auto.
          rewrite nth_rev, LC in H by lia. apply nth_combine in H. tauto.
        - intros (K & E1 & E2). rewrite nth_rev, LC by lia. now apply nth_combine. }
      assert (Lt : forall k d, nth_error (l_shape l) k = Some d -> k < length (l_shape l)) by (intros k d H; apply nth_error_Some; congruence).
      rewrite loop_zero. unfold above, ascending, row_preferred, long_axis. split.
      * intros (A & B & C). split; [|split].
        -- intros k d s (E1 & E2 & N). pose proof (Lt _ _ E1). apply (A (length (l_shape l) - 1 - k) s d); auto. apply R.
           replace (length (l_shape l) - 1 - (length (l_shape l) - 1 - k)) with k by lia. repeat split; auto; lia.
        -- intros j k d e s t J (E1 & E2 & N) (E3 & E4 & N'). pose proof (Lt _ _ E1). pose proof (Lt _ _ E3).
           apply (B (length (l_shape l) - 1 - k) (length (l_shape l) - 1 - j) t e s d); auto; try lia; apply R.
           ++ replace (length (l_shape l) - 1 - (length (l_shape l) - 1 - k)) with k by lia. repeat split; auto; lia.
           ++ replace (length (l_shape l) - 1 - (length (l_shape l) - 1 - j)) with j by lia. repeat split; auto; lia.
        -- intros d s (E1 & E2 & N). pose proof (Lt _ _ E1). apply (C s d); auto. apply R. rewrite Nat.sub_0_r. repeat split; auto; lia.
      * intros (A & B & C). split; [|split].
        -- intros k s d E1 N. apply R in E1. destruct E1 as (_ & E1 & E2). eapply A; eauto.
        -- intros j k s d t e J E1 E2 N N'. apply R in E1. apply R in E2. destruct E1 as (K1 & E1 & E1'). destruct E2 as (K2 & E2 & E2').
           apply (B (length (l_shape l) - 1 - k) (length (l_shape l) - 1 - j) e d t s); auto; lia.
        -- intros s d E1 N. apply R in E1. rewrite Nat.sub_0_r in E1. destruct E1 as (_ & E1 & E2). eapply C; eauto.
Qed.
Lemma contig_loop_le : forall p acc k, contig_loop p acc k <= k + length p.
Proof. induction p as [|[s d] p IH]; intros acc k; cbn [contig_loop length]; [lia|]. destruct (_ && _); [lia|]. pose proof (IH (acc * Z.of_nat d)%Z (S k)). lia. Qed.
Lemma contig_loop_prefer : forall p acc k last, contig_loop p acc k = k + length p -> (forall s d, In (s, d) p -> d <> 0) -> (1 <= acc)%Z -> (0 <= last <= acc)%Z -> (last = 0 -> acc = 1)%Z -> prefer_loop p last = true.
Proof.
  induction p as [|[s d] p IH]; intros acc k last E NZ Ha Hl H0; cbn [prefer_loop]; auto. cbn [contig_loop length] in E.
  assert (D : d <> 0) by (apply (NZ s); now left).
  assert (NZ' : forall s' d', In (s', d') p -> d' <> 0) by (intros; eapply NZ; right; eauto).
  destruct (Nat.eqb_spec d 1) as [->|Hd]; cbn [negb andb] in *.
  - destruct (Z.eqb_spec last 0) as [L|L]; apply (IH (acc * Z.of_nat 1)%Z (S k)); auto; lia.
  - destruct (Z.eqb_spec s acc) as [->|S1]; cbn [negb] in E; [|lia].
    destruct (Z.ltb_spec acc last); [lia|]. replace ((last =? 0) && negb (acc =? 1))%Z with false by (destruct (Z.eqb_spec last 0); cbn; auto; rewrite H0 by auto; reflexivity).
    apply (IH (acc * Z.of_nat d)%Z (S k)); auto; nia.
Qed.
Lemma size_nonzero : forall s, size s <> 0 -> forall d, In d s -> d <> 0.
Proof. induction s as [|x s IH]; intros H d I; [destruct I|]. unfold size in *. cbn in H. destruct I as [->|I]; [intros ->; lia|]. apply IH; auto. intro E. apply H. unfold size. lia. Qed.
Lemma l_contig_prefers : forall l, wf l -> size (l_shape l) <> 0 -> (f_contig l = true -> column_preferred l) /\ (c_contig l = true -> row_preferred l).
Proof.
  intros l W Hs. destruct (l_prefer l W Hs) as [<- <-]. unfold f_contig, c_contig, f_prefer, c_prefer, ndim_of_f_contig, ndim_of_c_contig.
  destruct ((ndim l =? 0) || (l_size l =? 0)) eqn:E; [auto|]. destruct W as [HL _].
  assert (LC : length (combine (l_stride l) (l_shape l)) = ndim l) by (rewrite combine_length; unfold ndim; lia).
  assert (NZ : forall s d, In (s, d) (combine (l_stride l) (l_shape l)) -> d <> 0) by (intros s d I; apply in_combine_r in I; eapply size_nonzero; eauto).
  split; intro H; apply Nat.eqb_eq in H.
  - apply (contig_loop_prefer _ 1 0); auto; lia.
  - apply (contig_loop_prefer _ 1 0); auto; try lia; [rewrite rev_length; lia|]. intros s d I. apply in_rev in I. eauto.
Qed.

(** the text of a layout *)
Lemma entries_join_false : forall xs, show_entries false xs = match xs with [] => [] | _ => str ", " ++ join (str ", ") xs end.
Proof. induction xs as [|x xs IH]; auto. cbn [show_entries]. rewrite IH. destruct xs; cbn [join]; [now rewrite app_nil_r|reflexivity]. Qed.
Lemma slice_listing xs : show_slice xs = listing xs.
Proof. unfold show_slice, listing. do 2 f_equal. destruct xs as [|x xs]; auto. cbn [show_entries]. rewrite entries_join_false. destruct xs; cbn [join app]; [now rewrite app_nil_r|reflexivity]. Qed.
Lemma l_layout_text : forall ty l, wf l -> (0 <= l_offset l)%Z -> exists word, truthful l word /\ layout_debug ty l = layout_lines (match ty with Dyn => true | Fixed => false end) word l.
Proof.
  intros ty l W Ho. exists (contig_word l). split.
  - unfold truthful, contig_word, l_size. destruct (Nat.eqb_spec (size (l_shape l)) 0) as [E|E]; auto.
    destruct (contig_predicates l W E) as (C1 & C2 & _). destruct (l_prefer l W E) as (P1 & P2).
    exists (c_contig l), (c_prefer l), (f_contig l), (f_prefer l). repeat (split; [assumption|]).
    destruct (c_contig l), (c_prefer l), (f_contig l), (f_prefer l); reflexivity.
  - unfold layout_debug, layout_lines, show_usize, show_isize, as_usize. rewrite !slice_listing. replace (l_offset l <? 0)%Z with false by (symmetry; apply Z.ltb_ge; lia). destruct ty; reflexivity.
Qed.

(** reading a text back *)
Definition ends (p : ascii -> bool) (x : text) : Prop := match x with [] => True | c :: _ => p c = false end.
Lemma span : forall p (a b x y : text), forallb p a = true -> forallb p b = true -> ends p x -> ends p y -> a ++ x = b ++ y -> a = b /\ x = y.
Proof.
  intros p. induction a as [|c a IH]; intros [|d b] x y Ha Hb Hx Hy E; cbn [app forallb ends] in *; auto.
  - subst x. cbn in Hx. apply andb_prop in Hb. destruct Hb. congruence.
  - subst y. cbn in Hy. apply andb_prop in Ha. destruct Ha. congruence.
  - injection E as -> E. apply andb_prop in Ha. apply andb_prop in Hb. destruct (IH b x y) as [-> ->]; tauto.
Qed.
Definition is_digit (c : ascii) : bool := existsb (Ascii.eqb c) (str "0123456789").
Definition is_number (c : ascii) : bool := existsb (Ascii.eqb c) (str "-0123456789").
Lemma uint_digits : forall d, forallb is_digit (str (NilEmpty.string_of_uint d)) = true.
Proof. induction d; cbn [NilEmpty.string_of_uint str String.list_ascii_of_string forallb]; auto; fold (str (NilEmpty.string_of_uint d)); rewrite IHd; reflexivity. Qed.
Lemma zero_digits : forall d, forallb is_digit (str (NilZero.string_of_uint d)) = true.
Proof. intros d. unfold NilZero.string_of_uint. destruct d; try reflexivity; apply uint_digits. Qed.
Lemma digits_numbers : forall x, forallb is_digit x = true -> forallb is_number x = true.
Proof. intros x H. rewrite forallb_forall in *. intros c I. specialize (H c I). unfold is_digit, is_number in *. cbn [str String.list_ascii_of_string existsb] in *. rewrite H. apply orb_true_r. Qed.
Lemma usize_digits n : forallb is_digit (show_usize n) = true.
Proof. apply zero_digits. Qed.
Lemma isize_numbers z : forallb is_number (show_isize z) = true.
Proof. unfold show_isize, NilZero.string_of_int. destruct (Z.to_int z); [apply digits_numbers, zero_digits|]. cbn [str String.list_ascii_of_string forallb]. fold (str (NilZero.string_of_uint d)). now rewrite digits_numbers by apply zero_digits. Qed.
Lemma str_inj a b : str a = str b -> a = b.
Proof. intro H. rewrite <- (string_of_list_ascii_of_string a), <- (string_of_list_ascii_of_string b). unfold str in H. now rewrite H. Qed.
Lemma nat_nonnil n : Nat.to_uint n <> Nil.
Proof. pose proof (DecimalNat.Unsigned.to_of (Nat.to_uint n)) as H. rewrite DecimalNat.Unsigned.of_to in H. rewrite H. apply unorm_nonnil. Qed.
Lemma usize_inj a b : show_usize a = show_usize b -> a = b.
Proof.
  intro H. apply str_inj in H. apply DecimalNat.Unsigned.to_uint_inj. apply (f_equal NilZero.uint_of_string) in H.
  rewrite !NilZero.usu in H by apply nat_nonnil. congruence.
Qed.
Lemma isize_inj a b : show_isize a = show_isize b -> a = b.
Proof.
  intro H. apply str_inj in H. apply to_int_inj. apply (f_equal NilZero.int_of_string) in H.
  assert (N : forall z, Z.to_int z <> Pos Nil /\ Z.to_int z <> Neg Nil).
  { intros [|p|p]; cbn; split; try discriminate; intro E; injection E as E; now apply DecimalPos.Unsigned.to_uint_nonnil in E. }
  rewrite !NilZero.isi in H by apply N. congruence.
Qed.
Lemma uint_nonempty d : str (NilZero.string_of_uint d) <> [].
Proof. destruct d; discriminate. Qed.
Lemma isize_nonempty z : show_isize z <> [].
Proof. unfold show_isize, NilZero.string_of_int. destruct (Z.to_int z); [apply uint_nonempty|discriminate]. Qed.
Lemma entries_ends (p : ascii -> bool) xs u : p ","%char = false -> p "]"%char = false -> ends p (show_entries false xs ++ str "]" ++ u).
Proof. destruct xs; cbn; auto. Qed.
Section Slice.
  Context {A : Type} (f : A -> text) (p : ascii -> bool).
  Hypothesis f_inj : forall a b, f a = f b -> a = b.
  Hypothesis f_p : forall a, forallb p (f a) = true.
  Hypothesis f_some : forall a, f a <> [].
  Hypothesis p_comma : p ","%char = false.
  Hypothesis p_close : p "]"%char = false.
  Lemma entries_inj : forall xs ys first u v, show_entries first (map f xs) ++ str "]" ++ u = show_entries first (map f ys) ++ str "]" ++ v -> xs = ys /\ u = v.
  Proof.
    assert (Z : forall first y ys u v, str "]" ++ u = ((if first : bool then [] else str ", ") ++ f y ++ show_entries false ys) ++ str "]" ++ v -> False).
    { intros first y ys u v E. destruct first; [|discriminate E]. cbn [app] in E. pose proof (f_some y) as N. pose proof (f_p y) as P. destruct (f y) as [|c r]; [congruence|].
      cbn in E. injection E as E _. cbn in P. subst c. now rewrite p_close in P. }
    induction xs as [|x xs IH]; intros [|y ys] first u v E; cbn [map show_entries app] in E.
    - apply app_inv_head in E. auto.
    - exfalso. eapply Z; eauto.
    - symmetry in E. exfalso. eapply Z; eauto.
    - rewrite <- !app_assoc in E. apply app_inv_head in E. apply span with (p := p) in E; auto; try now apply entries_ends.
      destruct E as [E1 E2]. apply IH in E2. destruct E2 as [-> ->]. now rewrite (f_inj _ _ E1).
  Qed.
  Lemma slice_inj xs ys u v : show_slice (map f xs) ++ u = show_slice (map f ys) ++ v -> xs = ys /\ u = v.
  Proof. unfold show_slice. rewrite <- !app_assoc. intro E. apply app_inv_head in E. now apply entries_inj in E. Qed.
End Slice.
Definition not_newline (c : ascii) : bool := negb (Ascii.eqb c newline).
Lemma word_line l : forallb not_newline (contig_word l) = true.
Proof. unfold contig_word. destruct (_ =? 0); auto. destruct (c_contig l), (c_prefer l), (f_contig l), (f_prefer l); reflexivity. Qed.
Lemma l_layout_text_unique : forall ty ty' l l', fits (l_offset l) -> fits (l_offset l') -> layout_debug ty l = layout_debug ty' l' -> ty = ty' /\ l = l'.
Proof.
  intros ty ty' l l' F F' E. unfold layout_debug in E.
  apply span with (p := is_digit) in E; try apply usize_digits; try reflexivity. destruct E as [_ E]. apply app_inv_head in E.
  assert (T : ty = ty') by (destruct ty, ty'; auto; discriminate E). subst ty'. split; auto. apply app_inv_head in E. apply app_inv_head in E.
  apply span with (p := not_newline) in E; try apply word_line; try reflexivity. destruct E as [_ E]. do 2 apply app_inv_head in E.
  apply slice_inj with (p := is_digit) in E; auto using usize_inj, usize_digits, uint_nonempty. 2: intro; apply uint_nonempty. destruct E as [E1 E]. apply app_inv_head in E.
  apply slice_inj with (p := is_number) in E; auto using isize_inj, isize_numbers, isize_nonempty. destruct E as [E2 E]. apply app_inv_head in E. apply isize_inj in E.
  destruct l as [s st o], l' as [s' st' o']. cbn in *. subst s' st'. f_equal. unfold fits, as_usize in *. cbn in *. destruct (Z.ltb_spec o 0), (Z.ltb_spec o' 0); lia.
Qed.

(** the text of a tensor *)
Lemma l_debug : forall T (show : T -> text) (device type_name : text) (ty : dimty) (mx mn : nat) (t : tensor T), tensor_ok t -> 1 <= mn ->
  exists enough, forall fuel, enough <= fuel ->
  tensor_debug show device type_name ty fuel mx mn t = Some (Ok (report (display show mx mn (t_shape t) (at_ t)) device (layout_debug ty (t_layout t)) type_name)).
Proof.
  intros T show device type_name ty mx mn t Hok Hmn. destruct (l_print T show mx mn t Hok Hmn) as (n & H). exists n. intros fuel Hf. unfold tensor_debug. rewrite (H fuel Hf).
  do 2 f_equal. unfold report. cbn [map concat]. rewrite <- !app_assoc. rewrite !app_nil_r. reflexivity.
Qed.
Lemma last_line (c : ascii) : forall (a b x y : text), ~ In c x -> ~ In c y -> a ++ c :: x = b ++ c :: y -> a = b /\ x = y.
Proof.
  intros a b x y Hx Hy E. apply (f_equal (@rev _)) in E. rewrite !rev_app_distr in E. cbn [rev] in E. rewrite <- !app_assoc in E.
  assert (P : forall u, ~ In c u -> forallb (fun d => negb (Ascii.eqb d c)) (rev u) = true).
  { intros u Hu. apply forallb_forall. intros d I. destruct (Ascii.eqb_spec d c) as [->|N]; auto. apply in_rev in I. contradiction. }
  apply span with (p := fun d => negb (Ascii.eqb d c)) in E; auto; try (cbn; now rewrite Ascii.eqb_refl). destruct E as [E1 E2].
  apply (f_equal (@rev _)) in E1. rewrite !rev_involutive in E1. injection E2 as E2. apply (f_equal (@rev _)) in E2. rewrite !rev_involutive in E2. auto.
Qed.
Lemma number_line x : forallb is_number x = true -> ~ In newline x.
Proof. intros H I. rewrite forallb_forall in H. apply H in I. vm_compute in I. discriminate. Qed.
Lemma entries_line : forall xs first, (forall x, In x xs -> ~ In newline x) -> ~ In newline (show_entries first xs).
Proof.
  induction xs as [|x xs IH]; intros first H I; cbn [show_entries] in I; [destruct I|]. apply in_app_or in I. destruct I as [I|I].
  - destruct first; [destruct I|]. cbn in I. repeat (destruct I as [I|I]; [vm_compute in I; discriminate I|]). destruct I.
  - apply in_app_or in I. destruct I as [I|I]; [apply (H x); auto; now left|]. eapply IH; eauto. intros y J. apply H. now right.
Qed.
Lemma line_app (a b : text) : ~ In newline a -> ~ In newline b -> ~ In newline (a ++ b).
Proof. intros A B I. apply in_app_or in I. tauto. Qed.
Ltac plain := let I := fresh in intro I; cbn in I; repeat (destruct I as [I|I]; [vm_compute in I; discriminate I|]); destruct I.
Lemma slice_line xs : (forall x, In x xs -> ~ In newline x) -> ~ In newline (show_slice xs).
Proof. intro H. unfold show_slice. repeat apply line_app; try plain. now apply entries_line. Qed.
Definition line1 (ty : dimty) (l : layout) : text := show_usize (ndim l) ++ str "-Dim" ++ match ty with Dyn => str " (dyn)" | Fixed => [] end ++ str ", contiguous: " ++ contig_word l.
Definition line2 (l : layout) : text := str "shape: " ++ show_slice (map show_usize (l_shape l)) ++ str ", stride: " ++ show_slice (map show_isize (l_stride l)) ++ str ", offset: " ++ show_isize (as_usize (l_offset l)).
Lemma layout_debug_lines ty l : layout_debug ty l = line1 ty l ++ newline :: line2 l.
Proof. unfold layout_debug, line1, line2. rewrite <- !app_assoc. reflexivity. Qed.
Lemma line1_line ty l : ~ In newline (line1 ty l).
Proof.
  unfold line1. repeat match goal with |- ~ In _ (_ ++ _) => apply line_app end; try plain; [apply number_line, digits_numbers, usize_digits|destruct ty; plain|].
  intro I. pose proof (word_line l) as H. rewrite forallb_forall in H. apply H in I. vm_compute in I. discriminate.
Qed.
Lemma line2_line l : ~ In newline (line2 l).
Proof.
  unfold line2. repeat match goal with |- ~ In _ (_ ++ _) => apply line_app end; try plain; try (apply number_line, isize_numbers); apply slice_line; intros x I; apply in_map_iff in I; destruct I as (k & <- & _); [apply number_line, digits_numbers, usize_digits|apply number_line, isize_numbers].
Qed.
Lemma report_unique : forall (e e' d d' n n' : text) (ty ty' : dimty) (l l' : layout), one_line n -> one_line n' -> fits (l_offset l) -> fits (l_offset l') ->
  report e d (layout_debug ty l) n = report e' d' (layout_debug ty' l') n' -> ty = ty' /\ l = l' /\ n = n'.
Proof.
  intros e e' d d' n n' ty ty' l l' N N' F F' E. unfold report in E. cbn [map concat] in E. rewrite !app_nil_r, !layout_debug_lines in E.
  assert (R : forall (h e d n tail : text) ty l,
    h ++ (e ++ [newline]) ++ (d ++ [newline]) ++ ((line1 ty l ++ newline :: line2 l) ++ [newline]) ++ ((str "Type: " ++ n) ++ [newline]) ++ tail
    = ((((h ++ (e ++ [newline]) ++ d) ++ newline :: line1 ty l) ++ newline :: line2 l) ++ newline :: (str "Type: " ++ n)) ++ newline :: tail).
  { intros. rewrite <- !app_assoc. cbn [app]. rewrite <- !app_assoc. cbn [app]. reflexivity. }
  set (h := str "=== Debug Tensor Print ===" ++ [newline]) in E. set (tail := str "==========================" ++ [newline]) in E.
  apply app_inv_head in E. rewrite !R in E.
  change tail with (str "==========================" ++ newline :: []) in E.
  assert (Q : forall p : text, p ++ newline :: (str "==========================" ++ newline :: []) = (p ++ newline :: str "==========================") ++ newline :: []) by (intros; rewrite <- app_assoc; reflexivity).
  rewrite !Q in E. apply last_line in E; try plain. destruct E as [E _]. apply last_line in E; try plain. destruct E as [E _].
  apply last_line in E; try (apply line_app; [plain|assumption]). destruct E as [E E1]. apply app_inv_head in E1.
  apply last_line in E; try apply line2_line. destruct E as [E E2]. apply last_line in E; try apply line1_line. destruct E as [_ E3].
  assert (X : layout_debug ty l = layout_debug ty' l') by (rewrite !layout_debug_lines; congruence).
  destruct (l_layout_text_unique _ _ _ _ F F' X) as [-> ->]. auto.
Qed.
Lemma tensor_debug_report T (show : T -> text) device n ty fuel mx mn t x : tensor_debug show device n ty fuel mx mn t = Some (Ok x) -> exists e, x = report e device (layout_debug ty (t_layout t)) n.
Proof.
  unfold tensor_debug. destruct (print_tensor show fuel mx mn t) as [[e| |]|]; intro H; try discriminate H. injection H as <-. exists e. unfold report. cbn [map concat]. rewrite <- !app_assoc, !app_nil_r. reflexivity.
Qed.
Lemma l_debug_unique : forall T T' (show : T -> text) (show' : T' -> text) (d d' n n' : text) (ty ty' : dimty) (fuel fuel' mx mx' mn mn' : nat) (t : tensor T) (t' : tensor T') x,
  one_line n -> one_line n' -> fits (l_offset (t_layout t)) -> fits (l_offset (t_layout t')) ->
  tensor_debug show d n ty fuel mx mn t = Some (Ok x) -> tensor_debug show' d' n' ty' fuel' mx' mn' t' = Some (Ok x) -> ty = ty' /\ t_layout t = t_layout t' /\ n = n'.
Proof.
  intros until x. intros N N' F F' E E'. apply tensor_debug_report in E. apply tensor_debug_report in E'. destruct E as [e ->]. destruct E' as [e' E]. eapply report_unique; eauto.
Qed.
