(** Proofs about printed tensors *)
From Coq Require Import Ascii String.
From Verif Require Import Base Spec Spec_Format M_Layout M_Tensor M_Format P_Index P_Strides P_Iter P_Tensor P_Axes.
From Coq Require Import List.
Local Open Scope nat_scope.
Local Open Scope list_scope.

Lemma repeated_S s n : repeated s (S n) = str s ++ repeated s n. Proof. reflexivity. Qed.
Lemma repeated_last s n : repeated s (S n) = repeated s n ++ str s.
Proof. induction n as [|n IH]; [unfold repeated; cbn; now rewrite app_nil_r|]. rewrite (repeated_S s (S n)). rewrite (repeated_S s n) at 2. rewrite <- app_assoc. now f_equal. Qed.

Lemma block_cons {T} (show : T -> text) mx mn k n rest get : rest <> [] ->
  block show mx mn k (n :: rest) get = str "[" ++ join ((if length rest =? 1 then [newline] else [newline; newline]) ++ spaces (k + 1))
    (map (fun o => match o with Some i => block show mx mn (k + 1) rest (fun ix => get (i :: ix)) | None => str "..." end) (shown (stack_limit mx mn) mn n)) ++ str "]".
Proof. destruct rest; [congruence|]. reflexivity. Qed.
Lemma block_ext {T} (show : T -> text) mx mn s : forall k g1 g2, (forall ix, g1 ix = g2 ix) -> block show mx mn k s g1 = block show mx mn k s g2.
Proof.
  induction s as [|n rest IH]; intros k g1 g2 H; [cbn; now rewrite H|]. destruct rest as [|m rest].
  - cbn. do 2 f_equal. f_equal. apply map_ext. intros [i|]; [now rewrite H|reflexivity].
  - rewrite !block_cons by discriminate. do 3 f_equal. apply map_ext. intros [i|]; [apply IH; intros; apply H|reflexivity].
Qed.

Lemma valid_snoc s ix n i : valid s ix -> i < n -> valid (s ++ [n]) (ix ++ [i]).
Proof. intros H Hi. apply Forall2_app; [exact H|]. now repeat constructor. Qed.

Lemma firstn_snoc_gen s : forall k, k < length s -> firstn (S k) s = firstn k s ++ [nth k s 0].
Proof. induction s as [|a r IH]; intros k Hk; [cbn in Hk; lia|]. destruct k; [reflexivity|]. cbn [firstn nth app]. f_equal. apply IH. cbn in Hk. lia. Qed.
Lemma skipn_at_gen s : forall k, k < length s -> skipn k s = nth k s 0 :: skipn (S k) s.
Proof. induction s as [|a r IH]; intros k Hk; [cbn in Hk; lia|]. destruct k; [reflexivity|]. cbn [skipn nth]. apply IH. cbn in Hk. lia. Qed.

Section Run.
  Context {T : Type} (show : T -> text) (t : tensor T) (mx mn : nat).
  Let l := t_layout t.
  Let vec := t_data t.
  Let sh := l_shape l.
  Let st := l_stride l.
  Let nd := ndim l.
  Hypothesis Hok : tensor_ok t.
  Hypothesis Hsize : size sh <> 0.
  Hypothesis Hmn : 1 <= mn.

  Lemma stlen : length st = length sh.
  Proof. destruct Hok as [[Hw _] _]. apply Hw. Qed.
  Lemma ext_pos k : k < nd -> nth k sh 0 <> 0.
  Proof. intros Hk. pose proof (nth_size_nonzero sh k Hsize Hk); lia. Qed.

  (** address of a prefix of an index, held as a stack *)
  Definition A (idx : list nat) : Z := addr l (rev idx).
  Lemma A_cons i idx : length idx < nd -> A (i :: idx) = (A idx + Z.of_nat i * nth (length idx) st 0)%Z.
  Proof.
    intros Hk. unfold A, addr. cbn [rev]. fold st.
    assert (E : dot st (rev idx ++ [i]) = (dot st (rev idx) + nth (length idx) st 0 * Z.of_nat i)%Z).
    { assert (Hl : length idx < length st) by (rewrite stlen; exact Hk). rewrite <- (rev_length idx) in Hl |- *. generalize (rev idx) Hl. clear. intros ix. revert ix.
      induction st as [|a r IH]; intros ix Hl; [cbn in Hl; lia|]. destruct ix as [|j ix]; [cbn; destruct r; cbn; lia|]. cbn [app dot length nth]. rewrite IH; [lia|]. cbn in Hl. lia. }
    rewrite E. lia.
  Qed.
  Definition V (idx : list nat) : Prop := length idx <= nd /\ valid (firstn (length idx) sh) (rev idx).
  Lemma V_nil : V []. Proof. split; [cbn; lia|constructor]. Qed.
  Lemma firstn_snoc k : k < nd -> firstn (S k) sh = firstn k sh ++ [nth k sh 0].
  Proof. apply firstn_snoc_gen. Qed.
  Lemma V_cons i idx : length idx < nd -> V idx -> i < nth (length idx) sh 0 -> V (i :: idx).
  Proof. intros Hk [H1 H2] Hi. split; [cbn; lia|]. cbn [length rev]. rewrite firstn_snoc by lia. now apply valid_snoc. Qed.
  Lemma V_inv i idx : V (i :: idx) -> length idx < nd /\ V idx /\ i < nth (length idx) sh 0.
  Proof.
    intros [H1 H2]. cbn [length] in H1. split; [lia|]. cbn [length rev] in H2. rewrite firstn_snoc in H2 by lia.
    apply Forall2_app_inv_l in H2. destruct H2 as (l1 & l2 & F1 & F2 & E).
        inversion F2; subst. inversion H4; subst. apply app_inj_tail in E. destruct E as [E1 E2]. subst. split; [split; [lia|exact F1]|]. lia.
  Qed.
  Lemma skipn_at k : k < nd -> skipn k sh = nth k sh 0 :: skipn (S k) sh.
  Proof. apply skipn_at_gen. Qed.

  Definition pre (idx : list nat) : text := spaces (length idx - leading_zeros idx) ++ repeated "[" (leading_zeros idx).
  Definition sep (r : nat) : text := if r =? 1 then [newline] else [newline; newline].
  Definition post (r : nat) (idx : list nat) : text :=
    repeated "]" (trailing_ends sh idx) ++ if trailing_ends sh idx =? length idx then [] else if 0 <? trailing_ends sh idx then [newline; newline] else sep r.
  Definition goes (n i : nat) : bool := (n <? mx) || (n <=? i + mn) || (i + 1 <? mn).
  Definition nxt (r : nat) (idx : list nat) (out : text) : printer :=
    match idx with
    | [] => mkPrinter 0 [] out
    | i :: below => let n := nth (length below) sh 0 in
        if goes n i then mkPrinter (A (i + 1 :: below)) (i + 1 :: below) out
        else mkPrinter (A (n - mn :: below)) (n - mn :: below) (out ++ spaces (length below + 1) ++ str "..." ++ sep r)
    end.
  Definition item (k : nat) (rest : list nat) (get : list nat -> option T) (o : option nat) : text :=
    match o with Some i => block show mx mn (k + 1) rest (fun ix => get (i :: ix)) | None => str "..." end.
  Definition get (idx : list nat) : list nat -> option T := fun ix => at_ t (rev idx ++ ix).

  Definition reach (s s' : printer) : Prop := exists k, forall f, dfs show (k + f) vec l mx mn s = dfs show f vec l mx mn s'.
  Lemma reach_refl s : reach s s. Proof. exists 0. reflexivity. Qed.
  Lemma reach_trans a b c : reach a b -> reach b c -> reach a c.
  Proof. intros [k1 H1] [k2 H2]. exists (k1 + k2). intros f. rewrite <- Nat.add_assoc, H1. apply H2. Qed.
  Lemma reach_step s s' : dfs_step show vec l mx mn s = Ok (inr s') -> reach s s'.
  Proof. intros H. exists 1. intros f. cbn [dfs Nat.add]. now rewrite H. Qed.

  (** ** One row *)
  Lemma at_some idx : length idx = nd -> V idx -> exists x, peek vec (A idx) = Some x /\ at_ t (rev idx) = Some x.
  Proof.
    intros Hl [_ HV]. rewrite Hl in HV. unfold nd, ndim in HV. rewrite firstn_all in HV. destruct Hok as [_ Hin]. specialize (Hin _ HV). unfold A, at_, elem. fold l vec. fold l vec in Hin. unfold peek. destruct (Z.ltb_spec (addr l (rev idx)) 0); [lia|].
    destruct (nth_error vec (Z.to_nat (addr l (rev idx)))) as [x|] eqn:E; [now exists x|]. apply nth_error_None in E. lia.
  Qed.
  Definition cells (idx : list nat) (range : list nat) : text := concat (map (fun i => str " " ++ cell show (get idx [i])) range).
  Lemma range_ok idx range : length idx + 1 = nd -> V idx -> (forall i, In i range -> i < nth (length idx) sh 0) ->
    print_range show vec (A idx) (nth (length idx) st 0%Z) range = Ok (cells idx range).
  Proof.
    intros Hl HV Hr. unfold print_range, cells.
    assert (E : map_res (fun i => match peek vec (A idx + Z.of_nat i * nth (length idx) st 0)%Z with Some x => Ok (str " " ++ show x) | None => Panic end) range =
      Ok (map (fun i => str " " ++ cell show (get idx [i])) range)).
    { induction range as [|i r IH]; [reflexivity|]. cbn [map_res map]. rewrite <- A_cons by lia.
      destruct (at_some (i :: idx)) as (x & E1 & E2); [cbn; lia|apply V_cons; [lia|exact HV|apply Hr; now left]|]. rewrite E1. cbn [bind].
      rewrite IH by (intros j Hj; apply Hr; now right). cbn [bind]. unfold get. cbn [rev] in E2. rewrite E2. reflexivity. }
    rewrite E. reflexivity.
  Qed.
  Lemma row_ok idx : length idx + 1 = nd -> V idx ->
    exists row, print_row show mx mn (nth (length idx) sh 0) (nth (length idx) st 0%Z) vec (A idx) = Ok row /\ block show mx mn (length idx) (skipn (length idx) sh) (get idx) = str "[" ++ row ++ str "]".
  Proof.
    intros Hl HV. rewrite skipn_at by lia. replace (skipn (S (length idx)) sh) with (@nil nat) by (symmetry; apply skipn_all2; unfold nd, ndim in Hl; fold sh in Hl; lia).
    unfold print_row. cbn [block]. unfold shown, row_limit. set (n := nth (length idx) sh 0). destruct (Nat.leb_spec n (Nat.max mx (2 * mn + 1))) as [Hn|Hn].
    - rewrite range_ok; [|exact Hl|exact HV|intros i Hi; apply in_seq in Hi; fold n; lia]. eexists. split; [reflexivity|]. rewrite map_map. reflexivity.
    - rewrite !range_ok; try exact Hl; try exact HV; try (intros i Hi; apply in_seq in Hi; fold n; lia). cbn [bind]. eexists. split; [reflexivity|].
      rewrite !map_app, !concat_app, !map_map. cbn [map concat]. rewrite app_nil_r. reflexivity.
  Qed.
  Lemma pre_app idx out : length idx + 1 = nd -> (out ++ spaces (nd - (1 + leading_zeros idx)) ++ repeated "[" (1 + leading_zeros idx)) = out ++ pre idx ++ str "[".
  Proof. intros Hl. unfold pre. replace (nd - (1 + leading_zeros idx)) with (length idx - leading_zeros idx) by lia. cbn [Nat.add]. rewrite repeated_last. now rewrite <- !app_assoc. Qed.
  Lemma row_step idx out : idx <> [] -> length idx + 1 = nd -> V idx ->
    reach (mkPrinter (A idx) idx out) (nxt 1 idx (out ++ pre idx ++ block show mx mn (length idx) (skipn (length idx) sh) (get idx) ++ post 1 idx)).
  Proof.
    intros Hne Hl HV. apply reach_step. destruct (row_ok idx Hl HV) as (row & R1 & R2). rewrite R2. destruct idx as [|i below]; [congruence|]. destruct (V_inv _ _ HV) as (H1 & H2 & H3).
    unfold dfs_step. cbv zeta. cbn [p_offset p_idx p_out]. fold nd sh st. destruct (Nat.eqb_spec nd 0); [lia|].
    replace (length (i :: below) - 1) with (length below) by (cbn; lia). destruct (Nat.eqb_spec i (nth (length below) sh 0)); [lia|].
    destruct (Nat.eqb_spec (length (i :: below) + 1) nd); [|congruence]. cbn [negb].
    replace (nd - 1) with (length (i :: below)) by lia.
    destruct (Nat.eqb_spec (nth (length (i :: below)) sh 0) 0) as [E|_]; [exfalso; revert E; apply ext_pos; lia|].
    rewrite R1. cbn [bind]. rewrite pre_app by exact Hl. unfold nxt. unfold goes.
    assert (Ep : ((out ++ pre (i :: below) ++ str "[") ++ row ++ repeated "]" (1 + trailing_ends sh (i :: below)) ++
      (if negb (1 + trailing_ends sh (i :: below) =? nd) then if 1 <? 1 + trailing_ends sh (i :: below) then [newline; newline] else [newline] else [])) =
      out ++ pre (i :: below) ++ (str "[" ++ row ++ str "]") ++ post 1 (i :: below)).
    { unfold post. replace (1 + trailing_ends sh (i :: below) =? nd) with (trailing_ends sh (i :: below) =? length (i :: below)) by lia.
      replace (1 <? 1 + trailing_ends sh (i :: below)) with (0 <? trailing_ends sh (i :: below)) by lia. cbn [Nat.add]. rewrite repeated_S.
      destruct (trailing_ends sh (i :: below) =? length (i :: below)); cbn [negb]; rewrite <- !app_assoc; reflexivity. }
    rewrite Ep. rewrite !A_cons by lia. replace (length below + 1) with (length (i :: below)) by (cbn; lia).
    destruct ((nth (length below) sh 0 <? mx) || (nth (length below) sh 0 <=? i + mn) || (i + 1 <? mn)).
    - do 3 f_equal. lia.
    - do 3 f_equal. lia.
  Qed.

  (** ** The items along an axis *)
  Definition whole (n : nat) : bool := n <=? stack_limit mx mn.
  Definition shown_from (n i : nat) : list (option nat) :=
    if whole n then map Some (seq i (n - i)) else if i <? mn then map Some (seq i (mn - i)) ++ [None] ++ map Some (seq (n - mn) mn) else map Some (seq i (n - i)).
  Lemma join_cons sp x more : more <> [] -> join sp (x :: more) = x ++ sp ++ join sp more.
  Proof. destruct more; [congruence|reflexivity]. Qed.
  Lemma from_step n i : i < n -> (whole n = true \/ i < mn \/ n <= i + mn) ->
    shown_from n i = if goes n i then if i + 1 =? n then [Some i] else Some i :: shown_from n (i + 1) else Some i :: None :: shown_from n (n - mn).
  Proof.
    intros Hi Hv. unfold shown_from, goes, whole, stack_limit in *. destruct (Nat.leb_spec n (Nat.max (mx - 1) (2 * mn - 1))) as [Hw|Hw].
    - replace ((n <? mx) || (n <=? i + mn) || (i + 1 <? mn)) with true by lia. destruct (Nat.eqb_spec (i + 1) n) as [E|E].
      + replace (n - i) with 1 by lia. reflexivity.
      + replace (n - i) with (S (n - (i + 1))) by lia. cbn [seq map]. now replace (S i) with (i + 1) by lia.
    - destruct (Nat.ltb_spec i mn) as [Hm|Hm].
      + destruct (Nat.ltb_spec (i + 1) mn) as [H1|H1].
        * replace ((n <? mx) || (n <=? i + mn) || true) with true by (now rewrite orb_true_r). destruct (Nat.eqb_spec (i + 1) n); [lia|].
          replace (mn - i) with (S (mn - (i + 1))) by lia. cbn [seq map app]. now replace (S i) with (i + 1) by lia.
        * replace ((n <? mx) || (n <=? i + mn) || false) with false by lia. replace (mn - i) with 1 by lia. cbn [seq map app].
          destruct (Nat.ltb_spec (n - mn) mn); [lia|]. replace (n - (n - mn)) with mn by lia. reflexivity.
      + replace ((n <? mx) || (n <=? i + mn) || (i + 1 <? mn)) with true by lia. destruct (Nat.ltb_spec (i + 1) mn); [lia|]. destruct (Nat.eqb_spec (i + 1) n) as [E|E].
        * replace (n - i) with 1 by lia. reflexivity.
        * replace (n - i) with (S (n - (i + 1))) by lia. cbn [seq map]. now replace (S i) with (i + 1) by lia.
  Qed.
  Lemma from_nonempty n i : i < n -> shown_from n i <> [].
  Proof.
    intros Hi. unfold shown_from. assert (H : map Some (seq i (n - i)) <> []) by (replace (n - i) with (S (n - i - 1)) by lia; discriminate).
    destruct (whole n); [exact H|]. destruct (Nat.ltb_spec i mn); [|exact H]. replace (mn - i) with (S (mn - i - 1)) by lia. discriminate.
  Qed.
  Lemma from_0 n : n <> 0 -> shown_from n 0 = shown (stack_limit mx mn) mn n.
  Proof. intros Hn. unfold shown_from, shown, whole. destruct (n <=? stack_limit mx mn); [now rewrite Nat.sub_0_r|]. destruct (Nat.ltb_spec 0 mn); [|lia]. now rewrite Nat.sub_0_r. Qed.

  Lemma pre_0 idx : pre (0 :: idx) = pre idx ++ str "[".
  Proof. unfold pre. cbn [leading_zeros length Nat.sub]. rewrite repeated_last. now rewrite app_assoc. Qed.
  Lemma pre_S i idx : i <> 0 -> pre (i :: idx) = spaces (length idx + 1).
  Proof. intros Hi. unfold pre. destruct i; [congruence|]. cbn [leading_zeros length]. rewrite Nat.sub_0_r, Nat.add_1_r. cbn. now rewrite app_nil_r. Qed.
  Lemma post_last r i idx : 2 <= r -> i + 1 = nth (length idx) sh 0 -> post (r - 1) (i :: idx) = str "]" ++ post r idx.
  Proof.
    intros Hr Hi. unfold post. cbn [trailing_ends length]. destruct (Nat.eqb_spec i (nth (length idx) sh 0 - 1)); [|lia]. rewrite repeated_S, <- app_assoc. f_equal. f_equal.
    cbn [Nat.eqb]. destruct (trailing_ends sh idx =? length idx); [reflexivity|]. replace (0 <? S (trailing_ends sh idx)) with true by lia. unfold sep. destruct (Nat.eqb_spec r 1); [lia|]. destruct (0 <? trailing_ends sh idx); reflexivity.
  Qed.
  Lemma post_mid r i idx : i + 1 < nth (length idx) sh 0 -> post (r - 1) (i :: idx) = sep (r - 1).
  Proof. intros Hi. unfold post. cbn [trailing_ends length]. destruct (Nat.eqb_spec i (nth (length idx) sh 0 - 1)); [lia|]. reflexivity. Qed.

  Section Loop.
    Context (idx : list nat) (r : nat).
    Let k := length idx.
    Let n := nth k sh 0.
    Hypothesis Hk : k + r = nd.
    Hypothesis Hr : 2 <= r.
    Hypothesis child : forall i out, i < n ->
      reach (mkPrinter (A (i :: idx)) (i :: idx) out) (nxt (r - 1) (i :: idx) (out ++ pre (i :: idx) ++ block show mx mn (k + 1) (skipn (k + 1) sh) (get (i :: idx)) ++ post (r - 1) (i :: idx))).
    Let it := item k (skipn (k + 1) sh) (get idx).
    Let sp := sep (r - 1) ++ spaces (k + 1).
    Lemma child_item i : block show mx mn (k + 1) (skipn (k + 1) sh) (get (i :: idx)) = it (Some i).
    Proof. unfold it, item. apply block_ext. intros ix. unfold get. cbn [rev]. now rewrite <- app_assoc. Qed.
    Lemma loop : forall d i out, n - i <= d -> i < n -> (whole n = true \/ i < mn \/ n <= i + mn) ->
      reach (mkPrinter (A (i :: idx)) (i :: idx) out) (mkPrinter (A (n :: idx)) (n :: idx) (out ++ pre (i :: idx) ++ join sp (map it (shown_from n i)) ++ str "]" ++ post r idx)).
    Proof.
      induction d as [|d IH]; intros i out Hd Hi Hv; [lia|]. eapply reach_trans; [apply child; exact Hi|]. rewrite child_item. unfold nxt. fold k n. rewrite (from_step n i Hi Hv).
      destruct (goes n i) eqn:Eg.
      - destruct (Nat.eqb_spec (i + 1) n) as [E|E].
        + rewrite E. cbn [map join]. rewrite post_last by (fold k n; lia). apply reach_refl.
        + rewrite post_mid by (fold k n; lia). cbn [map]. rewrite join_cons by (intros X; apply map_eq_nil in X; revert X; apply from_nonempty; lia).
          eapply reach_trans; [apply IH; [lia|lia|]|].
          { unfold goes, whole, stack_limit in *. lia. }
          rewrite (pre_S (i + 1)) by lia. unfold sp. fold k. rewrite <- !app_assoc. apply reach_refl.
      - assert (Hn : i + mn < n /\ mn <= i + 1) by (unfold goes in Eg; lia). rewrite post_mid by (fold k n; lia). cbn [map]. rewrite join_cons by discriminate.
        rewrite join_cons by (intros X; apply map_eq_nil in X; revert X; apply from_nonempty; lia).
        eapply reach_trans; [apply IH; [lia|lia|lia]|]. rewrite (pre_S (n - mn)) by lia. unfold sp. cbn [it item]. fold k. unfold item. rewrite <- !app_assoc. apply reach_refl.
    Qed.
    Lemma loop_all out : reach (mkPrinter (A idx) (0 :: idx) out) (mkPrinter (A (n :: idx)) (n :: idx) (out ++ pre idx ++ block show mx mn k (skipn k sh) (get idx) ++ post r idx)).
    Proof.
      assert (Hn : n <> 0) by (apply ext_pos; lia). replace (A idx) with (A (0 :: idx)) by (rewrite A_cons by (fold k; lia); lia).
      eapply reach_trans; [apply (loop n 0 out); [lia|lia|lia]|]. rewrite pre_0, from_0 by exact Hn. rewrite skipn_at by (fold k; lia). fold n.
      rewrite block_cons by (intros X; apply (f_equal (@length nat)) in X; rewrite skipn_length in X; unfold nd, ndim in Hk; fold sh in Hk; cbn in X; lia).
      replace (length (skipn (S k) sh) =? 1) with (r - 1 =? 1) by (rewrite skipn_length; unfold nd, ndim in Hk; fold sh in Hk; lia).
      unfold sp, it, sep. replace (S k) with (k + 1) by lia. rewrite <- !app_assoc. apply reach_refl.
    Qed.
  End Loop.

  Lemma block_run : forall r idx out, 1 <= r -> idx <> [] -> length idx + r = nd -> V idx ->
    reach (mkPrinter (A idx) idx out) (nxt r idx (out ++ pre idx ++ block show mx mn (length idx) (skipn (length idx) sh) (get idx) ++ post r idx)).
  Proof.
    induction r as [|r IH]; intros idx out Hr Hne Hl HV; [lia|]. destruct (Nat.eq_dec r 0) as [->|Hr0]; [now apply row_step|].
    destruct idx as [|i below]; [congruence|]. destruct (V_inv _ _ HV) as (H1 & H2 & H3).
    eapply reach_trans; [apply (reach_step _ (mkPrinter (A (i :: below)) (0 :: i :: below) out))|].
    { unfold dfs_step. cbv zeta. cbn [p_offset p_idx p_out]. fold nd sh st. destruct (Nat.eqb_spec nd 0); [lia|].
      replace (length (i :: below) - 1) with (length below) by (cbn; lia). destruct (Nat.eqb_spec i (nth (length below) sh 0)); [lia|].
      destruct (Nat.eqb_spec (length (i :: below) + 1) nd); [lia|]. reflexivity. }
    set (k := length (i :: below)) in *. set (n := nth k sh 0).
    eapply reach_trans; [apply (loop_all (i :: below) (S r)); [exact Hl|lia|]|].
    { intros j out' Hj. replace (S r - 1) with r by lia. replace (length (i :: below) + 1) with (length (j :: i :: below)) by (cbn; lia). apply IH; [lia|discriminate|cbn [length]; fold k; cbn [length] in k; lia|]. apply V_cons; [fold k; lia|exact HV|exact Hj]. }
    fold k n. apply reach_step. unfold dfs_step. cbv zeta. cbn [p_offset p_idx p_out]. fold nd sh st. destruct (Nat.eqb_spec nd 0); [lia|].
    replace (length (n :: i :: below) - 1) with k by (cbn; lia). replace (length (n :: i :: below) - 2) with (length below) by (cbn; lia).
    fold n. rewrite Nat.eqb_refl. assert (Hn : n <> 0) by (apply ext_pos; lia). destruct (Nat.eqb_spec n 0); [lia|]. unfold nxt, goes. replace k with (length below + 1) by (unfold k; cbn; lia).
    assert (Ea : A (n :: i :: below) = (A below + Z.of_nat i * nth (length below) st 0 + Z.of_nat n * nth k st 0)%Z) by (rewrite A_cons by (fold k; lia); rewrite A_cons by lia; reflexivity).
    rewrite Ea, !A_cons by lia. replace (length below + 1) with k by (unfold k; cbn; lia). unfold sep. destruct (Nat.eqb_spec (S r) 1); [lia|].
    destruct ((nth (length below) sh 0 <? mx) || (nth (length below) sh 0 <=? i + mn) || (i + 1 <? mn)); do 3 f_equal; lia.
  Qed.

  Lemma print_ok : exists k, forall f, k <= f -> print_tensor show f mx mn t = Some (Ok (display show mx mn (t_shape t) (at_ t))).
  Proof.
    unfold print_tensor, display, t_shape. fold l sh vec. destruct (Nat.eqb_spec (size sh) 0) as [?|_]; [congruence|].
    assert (Hend : forall s out, reach (mkPrinter (l_offset l) [] []) s -> dfs_step show vec l mx mn s = Ok (inl out) -> exists k, forall f, k <= f -> dfs show f vec l mx mn (mkPrinter (l_offset l) [] []) = Some (Ok out)).
    { intros s out [k H] E. exists (k + 1). intros f Hf. replace f with (k + S (f - k - 1)) by lia. rewrite H. cbn [dfs]. now rewrite E. }
    destruct (Nat.eq_dec nd 0) as [E0|E0].
    - apply (Hend (mkPrinter (l_offset l) [] [])); [apply reach_refl|]. unfold dfs_step. cbv zeta. cbn [p_offset p_idx p_out]. fold nd. rewrite E0. cbn [Nat.eqb].
      assert (Es : sh = []) by (apply length_zero_iff_nil; exact E0). rewrite Es. cbn [block]. destruct (at_some []) as (x & X1 & X2); [cbn; lia|apply V_nil|]. cbn [rev] in X2. rewrite X2.
      unfold A, addr in X1. cbn [rev] in X1. rewrite dot_nil_r, Z.add_0_r in X1. rewrite X1. reflexivity.
    - assert (EA : l_offset l = A []) by (unfold A, addr; cbn [rev]; rewrite dot_nil_r; lia).
      destruct (Nat.eq_dec nd 1) as [E1|E1].
      + apply (Hend (mkPrinter (l_offset l) [] [])); [apply reach_refl|]. unfold dfs_step. cbv zeta. cbn [p_offset p_idx p_out]. fold nd sh st. rewrite E1. cbn [Nat.eqb Nat.add negb Nat.sub].
        destruct (Nat.eqb_spec (nth 0 sh 0) 0) as [E|_]; [exfalso; revert E; apply ext_pos; lia|]. destruct (row_ok [] ltac:(cbn; lia) V_nil) as (row & R1 & R2). cbn [length skipn] in R1, R2.
        rewrite EA, R1. cbn [bind]. rewrite <- (block_ext show mx mn sh 0 (get []) (at_ t)) by reflexivity. rewrite R2. reflexivity.
      + set (n := nth 0 sh 0). apply (Hend (mkPrinter (A [n]) [n] (block show mx mn 0 sh (at_ t)))).
        * eapply reach_trans; [apply (reach_step _ (mkPrinter (A []) [0] []))|].
          { unfold dfs_step. cbv zeta. cbn [p_offset p_idx p_out]. fold nd. destruct (Nat.eqb_spec nd 0); [lia|]. destruct (Nat.eqb_spec (0 + 1) nd); [lia|]. now rewrite EA. }
          eapply reach_trans; [apply (loop_all [] nd); [reflexivity|lia|]|].
          { intros i out Hi. apply (block_run (nd - 1) [i]); [lia|discriminate|cbn; lia|]. apply V_cons; [cbn; lia|exact V_nil|exact Hi]. }
          cbn [length skipn]. fold n. unfold pre, post. cbn [leading_zeros trailing_ends length Nat.sub Nat.eqb repeated spaces]. unfold repeated, spaces, repeated. cbn [repeat concat app]. rewrite app_nil_r.
          rewrite (block_ext show mx mn sh 0 (get []) (at_ t)) by reflexivity. apply reach_refl.
        * unfold dfs_step. cbv zeta. cbn [p_offset p_idx p_out]. fold nd sh. destruct (Nat.eqb_spec nd 0); [lia|]. cbn [length Nat.sub]. fold n. rewrite Nat.eqb_refl.
          assert (Hn : n <> 0) by (apply ext_pos; lia). destruct (Nat.eqb_spec n 0); [lia|]. reflexivity.
  Qed.
End Run.

(** ** Zero extents *)
Section Empty.
  Context {T : Type} (show : T -> text) (t : tensor T) (mx mn : nat).
  Lemma zero_steps : forall d k out o, (forall j, j < k -> nth j (t_shape t) 0 <> 0) -> nth (k + d) (t_shape t) 0 = 0 -> k + d < length (t_shape t) -> (forall j, j < k + d -> nth j (t_shape t) 0 <> 0) ->
    forall f, d + 2 <= f -> dfs show f (t_data t) (t_layout t) mx mn (mkPrinter o (repeat 0 k) out) = Some (Ok (out ++ str "[]")).
  Proof.
    unfold t_shape. set (l := t_layout t). intros d. induction d as [|d IH]; intros k out o Hp Hz Hl Hb f Hf.
    - rewrite Nat.add_0_r in *. destruct f as [|f]; [lia|]. cbn [dfs].
      assert (Hnd : ndim l <> 0) by (unfold ndim; lia).
      destruct (Nat.eq_dec (k + 1) (ndim l)) as [El|El].
      + assert (X : dfs_step show (t_data t) l mx mn (mkPrinter o (repeat 0 k) out) = Ok (inl (out ++ str "[]"))).
        { unfold dfs_step. cbv zeta. cbn [p_offset p_idx p_out]. rewrite repeat_length. destruct (Nat.eqb_spec (ndim l) 0); [lia|]. replace (ndim l - 1) with k by lia. destruct k as [|k].
          - cbn [repeat]. destruct (Nat.eqb_spec (0 + 1) (ndim l)); [|lia]. cbn [negb]. rewrite Hz. reflexivity.
          - cbn [repeat]. replace (S k - 1) with k by lia. destruct (Nat.eqb_spec 0 (nth k (l_shape l) 0)) as [E|_]; [exfalso; symmetry in E; revert E; apply Hp; lia|].
            destruct (Nat.eqb_spec (S k + 1) (ndim l)); [|lia]. cbn [negb]. rewrite Hz. reflexivity. }
        now rewrite X.
      + assert (X : dfs_step show (t_data t) l mx mn (mkPrinter o (repeat 0 k) out) = Ok (inr (mkPrinter o (repeat 0 (S k)) out))).
        { unfold dfs_step. cbv zeta. cbn [p_offset p_idx p_out]. rewrite repeat_length. destruct (Nat.eqb_spec (ndim l) 0); [lia|]. destruct k as [|k].
          - cbn [repeat]. destruct (Nat.eqb_spec (0 + 1) (ndim l)); [lia|]. reflexivity.
          - cbn [repeat]. replace (S k - 1) with k by lia. destruct (Nat.eqb_spec 0 (nth k (l_shape l) 0)) as [E|_]; [exfalso; symmetry in E; revert E; apply Hp; lia|].
            destruct (Nat.eqb_spec (S k + 1) (ndim l)); [lia|]. reflexivity. }
        rewrite X. destruct f as [|f]; [lia|]. cbn [dfs]. unfold dfs_step at 1. cbv zeta. cbn [p_offset p_idx p_out]. rewrite repeat_length. destruct (Nat.eqb_spec (ndim l) 0); [lia|]. cbn [repeat].
        replace (S k - 1) with k by lia. rewrite Hz. cbn [Nat.eqb]. reflexivity.
    - destruct f as [|f]; [lia|]. cbn [dfs].
      assert (X : dfs_step show (t_data t) l mx mn (mkPrinter o (repeat 0 k) out) = Ok (inr (mkPrinter o (repeat 0 (S k)) out))).
      { unfold dfs_step. cbv zeta. cbn [p_offset p_idx p_out]. rewrite repeat_length. assert (Hnd : k + 1 < ndim l) by (unfold ndim; lia). destruct (Nat.eqb_spec (ndim l) 0); [lia|]. destruct k as [|k].
        - cbn [repeat]. destruct (Nat.eqb_spec (0 + 1) (ndim l)); [lia|]. reflexivity.
        - cbn [repeat]. replace (S k - 1) with k by lia. destruct (Nat.eqb_spec 0 (nth k (l_shape l) 0)) as [E|_]; [exfalso; symmetry in E; revert E; apply Hp; lia|].
          destruct (Nat.eqb_spec (S k + 1) (ndim l)); [lia|]. reflexivity. }
      rewrite X. apply IH; [|now replace (S k + d) with (k + S d) by lia|lia| |lia].
      + intros j Hj. apply Hb. lia.
      + intros j Hj. apply Hb. lia.
  Qed.
  Lemma first_zero s : size s = 0 -> exists k, k < length s /\ nth k s 0 = 0 /\ forall j, j < k -> nth j s 0 <> 0.
  Proof.
    induction s as [|n s IH]; intros H; [discriminate|]. cbn in H. destruct (Nat.eq_dec n 0) as [->|Hn].
    - exists 0. cbn. split; [lia|]. split; [reflexivity|lia].
    - destruct IH as (k & H1 & H2 & H3); [fold (size s) in H; nia|]. exists (S k). cbn. split; [lia|]. split; [exact H2|]. intros [|j] Hj; [exact Hn|]. apply H3. lia.
  Qed.
  Lemma empty_ok : size (t_shape t) = 0 -> exists k, forall f, k <= f -> print_tensor show f mx mn t = Some (Ok (str "[]")).
  Proof.
    intros H. destruct (first_zero _ H) as (k & H1 & H2 & H3). exists (k + 2). intros f Hf. unfold print_tensor. change [] with (repeat 0 0) at 1.
    rewrite (zero_steps k 0 [] (l_offset (t_layout t))); [reflexivity|lia|exact H2|exact H1|exact H3|exact Hf].
  Qed.
End Empty.

Lemma l_print : forall T (show : T -> text) (mx mn : nat) (t : tensor T), tensor_ok t -> (1 <= mn)%nat ->
  exists enough, forall fuel, (enough <= fuel)%nat -> print_tensor show fuel mx mn t = Some (Ok (display show mx mn (t_shape t) (at_ t))).
Proof.
  intros T show mx mn t Hok Hmn. destruct (Nat.eq_dec (size (t_shape t)) 0) as [E|E].
  - destruct (empty_ok show t mx mn E) as [k H]. exists k. intros f Hf. rewrite H by exact Hf. unfold display. now rewrite E.
  - now apply print_ok.
Qed.

(** ** Consequences *)
Lemma shown_bound limit mn n o : mn <= n \/ n <= limit -> In o (shown limit mn n) -> match o with Some i => i < n | None => True end.
Proof.
  intros H HI. unfold shown in HI. destruct (Nat.leb_spec n limit).
  - apply in_map_iff in HI. destruct HI as (i & <- & Hi). apply in_seq in Hi. lia.
  - rewrite !in_app_iff in HI. destruct HI as [HI|[HI|HI]].
    + apply in_map_iff in HI. destruct HI as (i & <- & Hi). apply in_seq in Hi. lia.
    + destruct HI as [<-|[]]. exact I.
    + apply in_map_iff in HI. destruct HI as (i & <- & Hi). apply in_seq in Hi. lia.
Qed.
Lemma block_ext_valid {T} (show : T -> text) mx mn s : forall k g1 g2, 1 <= mn -> (forall ix, valid s ix -> g1 ix = g2 ix) -> block show mx mn k s g1 = block show mx mn k s g2.
Proof.
  induction s as [|n rest IH]; intros k g1 g2 Hmn H; [cbn; now rewrite (H []) by constructor|]. destruct rest as [|m rest].
  - cbn. do 2 f_equal. f_equal. apply map_ext_in. intros [i|] Hi; [|reflexivity]. rewrite (H [i]); [reflexivity|]. repeat constructor. apply (shown_bound _ _ _ (Some i)) in Hi; [exact Hi|unfold row_limit; lia].
  - rewrite !block_cons by discriminate. do 3 f_equal. apply map_ext_in. intros [i|] Hi; [|reflexivity]. apply IH; [exact Hmn|]. intros ix Hix. apply H. constructor; [|exact Hix].
    apply (shown_bound _ _ _ (Some i)) in Hi; [exact Hi|unfold stack_limit; lia].
Qed.
Lemma l_print_same : forall T (show : T -> text) (mx mn : nat) (a b : tensor T), tensor_ok a -> tensor_ok b -> (1 <= mn)%nat -> t_shape a = t_shape b ->
  (forall ix, valid (t_shape a) ix -> at_ a ix = at_ b ix) ->
  exists enough, forall fuel, (enough <= fuel)%nat -> print_tensor show fuel mx mn a = print_tensor show fuel mx mn b.
Proof.
  intros T show mx mn a b Ha Hb Hmn Es Eg. destruct (l_print T show mx mn a Ha Hmn) as [ka Ka]. destruct (l_print T show mx mn b Hb Hmn) as [kb Kb]. exists (ka + kb). intros f Hf.
  rewrite Ka, Kb by lia. do 2 f_equal. rewrite <- Es. unfold display. destruct (size (t_shape a) =? 0); [reflexivity|]. now apply block_ext_valid.
Qed.

Lemma depth_app x y d d' : depth d x = Some d' -> depth d (x ++ y) = depth d' y.
Proof. revert d. induction x as [|c x IH]; intros d H; cbn in *; [congruence|]. destruct (Ascii.eqb c "["%char); [now apply IH|]. destruct (Ascii.eqb c "]"%char); [|now apply IH]. destruct d; [discriminate|]. now apply IH. Qed.
Lemma depth_plain x : no_brackets x -> forall d, depth d x = Some d.
Proof.
  induction x as [|c x IH]; intros [H1 H2] d; [reflexivity|]. cbn. destruct (Ascii.eqb_spec c "["%char); [exfalso; apply H1; now left|]. destruct (Ascii.eqb_spec c "]"%char); [exfalso; apply H2; now left|].
  apply IH. split; intros X; [apply H1|apply H2]; now right.
Qed.
Definition flat (x : text) : Prop := forall d, depth d x = Some d.
Lemma flat_app x y : flat x -> flat y -> flat (x ++ y).
Proof. intros Hx Hy d. now rewrite (depth_app _ _ d d). Qed.
Lemma flat_nil : flat []. Proof. intros d. reflexivity. Qed.
Lemma flat_concat xs : Forall flat xs -> flat (concat xs).
Proof. induction 1; cbn; [apply flat_nil|now apply flat_app]. Qed.
Lemma flat_join s xs : flat s -> Forall flat xs -> flat (join s xs).
Proof. intros Hs H. induction H as [|x xs Hx Hxs IH]; [apply flat_nil|]. destruct xs as [|y xs]; [exact Hx|]. cbn [join]. apply flat_app; [exact Hx|]. apply flat_app; [exact Hs|exact IH]. Qed.
Lemma flat_bracket x : flat x -> flat (str "[" ++ x ++ str "]").
Proof. intros H d. cbn. rewrite (depth_app _ _ (S d) (S d)) by apply H. reflexivity. Qed.
Lemma flat_repeated s n : flat (str s) -> flat (repeated s n).
Proof. intros H. unfold repeated. apply flat_concat. apply Forall_forall. intros x Hx. apply repeat_spec in Hx. now subst. Qed.
Lemma block_flat {T} (show : T -> text) mx mn s : (forall x, no_brackets (show x)) -> forall k g, flat (block show mx mn k s g).
Proof.
  intros Hs. assert (Hc : forall o, flat (cell show o)) by (intros [x|]; [intros d; apply depth_plain, Hs|apply flat_nil]).
  induction s as [|n rest IH]; intros k g; [apply Hc|]. destruct rest as [|m rest].
  - cbn [block]. apply flat_bracket. apply flat_concat. apply Forall_forall. intros x Hx. apply in_map_iff in Hx. destruct Hx as (o & <- & _). apply flat_app; [intros d; reflexivity|]. destruct o; [apply Hc|intros d; reflexivity].
  - rewrite block_cons by discriminate. apply flat_bracket. apply flat_join.
    + apply flat_app; [destruct (length (m :: rest) =? 1); intros d; reflexivity|]. apply flat_repeated. intros d. reflexivity.
    + apply Forall_forall. intros x Hx. apply in_map_iff in Hx. destruct Hx as (o & <- & _). destruct o; [apply IH|intros d; reflexivity].
Qed.
Lemma l_print_balanced : forall T (show : T -> text) (mx mn : nat) (t : tensor T), tensor_ok t -> (1 <= mn)%nat -> (forall x, no_brackets (show x)) ->
  exists out enough, (forall fuel, (enough <= fuel)%nat -> print_tensor show fuel mx mn t = Some (Ok out)) /\ depth 0 out = Some 0%nat.
Proof.
  intros T show mx mn t Hok Hmn Hs. destruct (l_print T show mx mn t Hok Hmn) as [k K]. eexists. exists k. split; [exact K|]. unfold display. destruct (size (t_shape t) =? 0); [reflexivity|]. now apply block_flat.
Qed.
(** dots stand for something *)
Lemma l_dots_hide : forall mx mn limit n, (limit = row_limit mx mn \/ limit = stack_limit mx mn /\ (2 * mn < mx)%nat) -> In None (shown limit mn n) ->
  exists i, (i < n)%nat /\ ~ In (Some i) (shown limit mn n).
Proof.
  intros mx mn limit n H Hn. assert (Hl : 2 * mn <= limit) by (unfold row_limit, stack_limit in H; lia). exists mn. unfold shown in *. destruct (Nat.leb_spec n limit) as [?|Hb].
  - apply in_map_iff in Hn. destruct Hn as (i & ? & _). discriminate.
  - split; [lia|]. rewrite !in_app_iff. intros [HI'|[HI'|HI']].
    + apply in_map_iff in HI'. destruct HI' as (i & E & Hi). injection E as ->. apply in_seq in Hi. lia.
    + destruct HI' as [?|[]]. discriminate.
    + apply in_map_iff in HI'. destruct HI' as (i & E & Hi). injection E as ->. apply in_seq in Hi. lia.
Qed.
Lemma l_dots_refuted : exists mx mn n, (1 <= mn)%nat /\ In None (shown (stack_limit mx mn) mn n) /\ forall i, (i < n)%nat -> In (Some i) (shown (stack_limit mx mn) mn n).
Proof.
  exists 8, 4, 8. split; [lia|]. split; [cbn; tauto|]. intros i Hi. cbn. do 8 (destruct i as [|i]; [tauto|]). lia.
Qed.
Definition digit (n : nat) : text := [Ascii.ascii_of_nat (48 + n mod 10)].
Lemma digit_plain n : no_brackets (digit n).
Proof.
  unfold digit. assert (H : n mod 10 < 10) by (apply Nat.mod_upper_bound; lia). remember (n mod 10) as m. clear Heqm. do 10 (destruct m as [|m]; [split; intros [E|[]]; discriminate|]). lia.
Qed.
Lemma l_min_print_refuted : exists (show : nat -> text) (t : tensor nat) mx out fuel, (forall x, no_brackets (show x)) /\ tensor_ok t /\
  print_tensor show fuel mx 0 t = Some (Ok out) /\ depth 0 out <> Some 0%nat.
Proof.
  exists digit, (mkTensor [0; 1; 2; 3; 4; 5; 6; 7; 8] (mkLayout [9; 1] [1; 1]%Z 0%Z)), 8. eexists. exists 20. split; [apply digit_plain|]. split; [concrete_tensor|]. split; [vm_compute; reflexivity|]. vm_compute. discriminate.
Qed.
