(** A reduction whose accumulators stay related to elements of a commutative monoid: the results are related to the combination of all
    elements, or of those with the remaining index. *)
From Verif Require Import Base Spec Spec_Stats Spec_FloatReduce P_Index P_List M_Layout P_Layout P_Bounds M_Indexer M_Broadcast M_Rearr M_Iter M_Kernel M_Tensor P_Tensor Q_Tensor M_Reduce P_Reduce P_Axes Q_Reduce M_Stats Q_Stats P_Param.
Local Open Scope Z_scope.

Section Shadow.
  Context {T S1 S2 O : Type} (RS : S1 -> S2 -> Prop) (e1 : S1) (f1 : S1 -> T -> S1) (s1 : S1 -> S1 -> S1) (o1 : S1 -> O) (e2 : S2) (op : S2 -> S2 -> S2) (h : T -> S2).
  Context (M : comm_monoid e2 op) (He : RS e1 e2) (Hf : forall x y p, RS x y -> RS (f1 x p) (op y (h p))) (Hs : forall x y x' y', RS x y -> RS x' y' -> RS (s1 x x') (op y y')).
  Let f2 (s : S2) (x : T) : S2 := op s (h x).
  Definition shadowed (xs : list T) (o : O) : Prop := exists y, o = o1 y /\ RS y (total e2 op (map h xs)).
  Let RO (o : O) (s : S2) : Prop := exists y, o = o1 y /\ RS y s.
  Lemma shadow_all dev k (t : tensor T) xs : works dev -> tensor_ok t -> elements (t_data t) (t_layout t) (row_major (t_shape t)) xs -> exists o, run_all dev e1 f1 s1 o1 k t = Ok o /\ shadowed xs o.
  Proof. intros W Ht E. assert (K : res_rel RO (run_all dev e1 f1 s1 o1 k t) (run_all dev e2 f2 op (fun s => s) k t)).
    { destruct dev; cbn [run_all]; [apply two_reduce_all with (RS := RS)|apply two_reduce_all_rayon with (RS := RS)]; auto; intros x y H; exists x; auto. }
    rewrite (run_all_ok e2 op h f2 (fun s => s) dev k t xs M (fun _ _ => eq_refl) W Ht E) in K. inversion K as [o s H E1 E2| |]. exists o. split; [reflexivity|]. exact H. Qed.
  Lemma shadow_axes dev dflt (t : tensor T) axes ax r : tensor_ok t -> size (t_shape t) <> 0%nat -> no_broadcast (t_layout t) -> Forall2 (axis_denotes (ndim (t_layout t))) axes ax -> NoDup ax -> run_axes dev dflt e1 f1 s1 o1 t axes r ->
    exists out lo, r = Ok (out, lo) /\ tensor_new out lo = Ok (mkTensor out lo) /\ tensor_ok (mkTensor out lo) /\ l_shape lo = pick (axes_except (ndim (t_layout t)) ax) 0%nat (t_shape t) /\
      forall mx xs, valid (l_shape lo) mx -> elements (t_data t) (t_layout t) (group (t_shape t) ax mx) xs -> exists o, elem out lo mx = Some o /\ shadowed xs o.
  Proof. intros Ht S0 NB D ND R. assert (K : exists r2, run_axes dev dflt e2 f2 op (fun s => s) t axes r2 /\ res_rel (out_rel RO) r r2).
    { destruct dev; cbn [run_axes] in R |- *.
      - subst r. eexists. split; [reflexivity|]. apply two_reduce_axes with (RS := RS); auto. intros x y H; exists x; auto.
      - eapply two_reduce_axes_rayon with (RS := RS); eauto. intros x y H; exists x; auto. }
    destruct K as (r2 & R2 & K). destruct (run_axes_ok e2 op h f2 (fun s => s) dev dflt t axes ax r2 M (fun _ _ => eq_refl) Ht S0 NB D ND R2) as (out2 & lo & -> & N2 & Ok2 & Sh & El). inversion K as [[out lo1] [y1 y2] H E1 E2| |]. destruct H as [F L]. cbn [fst snd] in F, L. inversion E2; subst. pose proof (F2_length _ _ _ F) as Ln.
    exists out, lo. split; [reflexivity|]. split; [|split; [|split; [exact Sh|]]].
    - unfold tensor_new in N2 |- *. rewrite Ln. destruct (check_strides lo true); cbn [bind] in *; try discriminate. destruct (bounds_index lo) as [bd| |]; cbn [bind] in *; try discriminate. destruct (check _ _); cbn [bind] in *; try discriminate. reflexivity.
    - destruct Ok2 as [A B]. split; [exact A|]. cbn [t_data t_layout] in *. now rewrite Ln.
    - intros mx xs V Ex. specialize (El mx xs V Ex). unfold elem in *. cbn [t_data] in *. assert (G : forall p v, peek out2 p = Some v -> exists o, peek out p = Some o /\ RO o v).
      { clear - F. intros p v. unfold peek. destruct (p <? 0); [discriminate|]. revert F. generalize (Z.to_nat p). clear. intros n F. revert n. induction F as [|x y xs ys H F IH]; intros [|n] E; cbn in *; try discriminate; auto. inversion E; subst. eauto. }
      destruct (G _ _ El) as (o & Eo & Ho). exists o. split; [exact Eo|]. exact Ho. Qed.
End Shadow.
(** from the two functions of the device to the function of the tensor *)
Lemma stat_as {T O} (t : tensor T) (P : list T -> O -> Prop) (all : res O) (some : list Z -> res (list O * layout) -> Prop) axes ax r : tensor_ok t -> reducible t ax -> names (ndim (t_layout t)) axes ax ->
  (forall xs, elements (t_data t) (t_layout t) (row_major (t_shape t)) xs -> exists o, all = Ok o /\ P xs o) ->
  (forall v ax q, size (t_shape t) <> 0%nat -> no_broadcast (t_layout t) -> Forall2 (axis_denotes (ndim (t_layout t))) v ax -> NoDup ax -> some v q ->
    exists out lo, q = Ok (out, lo) /\ tensor_new out lo = Ok (mkTensor out lo) /\ tensor_ok (mkTensor out lo) /\ l_shape lo = pick (axes_except (ndim (t_layout t)) ax) 0%nat (t_shape t) /\
    forall mx xs, valid (l_shape lo) mx -> elements (t_data t) (t_layout t) (group (t_shape t) ax mx) xs -> exists o, elem out lo mx = Some o /\ P xs o) ->
  stat_axes_f all some axes r -> exists t', r = Ok t' /\ tables_as t ax P t'.
Proof. intros Ht Rd N HA HS R. destruct ax as [ax|].
  - destruct Rd as [|(S0 & NB)]; [discriminate|]. apply named_axes in N as (Nn & D & ND). assert (X : exists q, some (axes_list axes) q /\ r = (let* p := q in tensor_new (fst p) (snd p))) by (destruct axes; [congruence|exact R|exact R]).
    destruct X as (q & Hq & ->). destruct (HS _ ax q S0 NB D ND Hq) as (out & lo & -> & En & Ok' & Sh & E). cbn [bind fst snd]. exists (mkTensor out lo). split; auto. cbn [tables_as]. split; auto.
  - destruct axes; try (destruct N). cbn [stat_axes_f] in R. destruct (l_elements _ t Ht) as (xs & E). destruct (HA xs E) as (o & Eo & Po). rewrite Eo in R. exists (mkTensor [o] (mkLayout [] [] 0)). split; [exact R|]. cbn [tables_as]. split; [|split; [reflexivity|]].
    + split; [repeat split; cbn; lia|]. intros ix V. apply valid_nil in V. subst ix. cbn. lia.
    + intros ys E2. assert (ys = xs) as -> by (clear - E E2; revert ys E2; induction E as [|i x ixs xs Ei _ IH]; intros ys E2; inversion E2; subst; auto; f_equal; [congruence|auto]). exists o. split; [reflexivity|exact Po]. Qed.
