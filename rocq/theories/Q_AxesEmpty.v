(** Iteration over axes when the views have no elements *)
From Verif Require Import Base Spec Spec_Views P_Index P_List M_Layout P_Layout P_Bounds P_Contig P_Strides M_Indexer P_Indexer P_Axes M_Broadcast M_Rearr M_Iter P_Iter Q_Iter P_Rearr Q_Rearr M_Kernel P_Kernel M_Tensor P_Tensor M_Reduce P_Arg M_Manip P_Views Q_Manip.
Local Open Scope Z_scope.

Lemma dot_forward ax st ix : (forall a, In a ax -> 0 <= nth a st 0) -> 0 <= dot (pick ax 0 st) ix.
Proof. revert ix. induction ax as [|a ax IH]; intros [|i ix] H; cbn [pick map dot]; try lia. specialize (IH ix (fun b Hb => H b (or_intror Hb))). pose proof (H a (or_introl eq_refl)). unfold pick in IH. nia. Qed.
Lemma l_axes_iter_empty : forall dflt l axes v ax o, accepted l -> 0 <= l_offset l -> lists_axes axes v -> v <> [] -> Forall2 (axis_denotes (ndim l)) v ax -> NoDup ax ->
  size (pick (axes_except (ndim l) ax) 0%nat (l_shape l)) = 0%nat -> (forall a, In a ax -> 0 <= nth a (l_stride l) 0) ->
  exists it vs, axes_iter_new dflt l axes (match o with RowMajor => OC | ColMajor => OF end) = Ok it /\ axes_iter_views it = Ok vs /\
    Forall2 (shows_subarray l ax) (enum o (pick ax 0%nat (l_shape l))) vs /\
    forall ops, size (pick ax 0%nat (l_shape l)) <> 0%nat \/ Forall (fun op => op = Front \/ op = Back) ops -> splits_within ops vs ->
      exists it', axes_iter_run ops it = Ok (fst (deque ops vs), it') /\ axes_iter_views it' = Ok (snd (deque ops vs)).
Proof. intros dflt l axes v ax o A O0 L Nv D ND S0 F. apply good_accepted in A. assert (S : safe l) by (split; apply A). pose proof (denotes_lt _ _ _ D) as B.
  assert (W : wf (sub ax l)) by (split; cbn [sub l_shape l_stride l_offset]; [now rewrite !pick_length|auto]).
  assert (N : nonneg (sub ax l)). { intros ix _. unfold addr. cbn [sub l_offset l_stride]. pose proof (dot_forward ax (l_stride l) ix F). lia. }
  destruct (new_order dflt Dyn (sub ax l) o W N) as (it & E & O & I & Li & P). subst o.
  set (ps := addrs (il_order it) (sub ax l)) in *.
  exists (mkAxesIter it (inner l ax)), (map (with_offset (inner l ax)) ps). split; [now rewrite (axes_iter_new_ok dflt l axes v ax _ S L Nv D ND), E|]. split.
  - unfold axes_iter_views. cbn [ai_iter ai_inner]. rewrite collect_ok by auto. cbn [bind]. now rewrite P.
  - split.
    + unfold ps, addrs. rewrite map_map. cbn [sub l_shape]. fold (sub ax l). assert (V : forall sx, In sx (enum (il_order it) (pick ax 0%nat (l_shape l))) -> valid (pick ax 0%nat (l_shape l)) sx) by (intros sx H; now apply in_enum in H).
      revert V. generalize (enum (il_order it) (pick ax 0%nat (l_shape l))). intros sxs V. induction sxs as [|sx sxs IH]; cbn [map]; [constructor|]. constructor; [split; [reflexivity|]; cbn [with_offset inner sub l_shape]; intros jx Vj; exfalso; apply (in_enum RowMajor) in Vj; pose proof (enum_length RowMajor (pick (axes_except (ndim l) ax) 0%nat (l_shape l))) as X; rewrite S0 in X; destruct (enum _ _); [exact Vj|discriminate]|apply IH; intros; apply V; now right].
    + intros ops Hs SW. apply (axes_iter_runs (mkAxesIter it (inner l ax)) ps ops); auto. cbn [ai_iter]. now rewrite Li. Qed.
(** the same with a negative stride: the positions of the empty views are negative *)
Lemma l_axes_iter_empty_refuted : exists l it, accepted l /\ 0 <= l_offset l /\ axes_iter_new RowMajor l (AxVal 0) OC = Ok it /\ axes_iter_views it = Panic /\ size (pick (axes_except (ndim l) [0%nat]) 0%nat (l_shape l)) = 0%nat.
Proof. exists (mkLayout [2; 0]%nat [-1; 1] 0). eexists. split; [split; [split; [reflexivity|cbn; lia]|reflexivity]|]. split; [cbn; lia|]. split; [vm_compute; reflexivity|]. split; vm_compute; reflexivity. Qed.
(** the indices that come with the views are those of an order C or F: other orders are turned down *)
Lemma l_indexed_axes_orders : forall dflt l axes v ax o, accepted l -> lists_axes axes v -> v <> [] -> Forall2 (axis_denotes (ndim l)) v ax -> NoDup ax -> size (pick (axes_except (ndim l) ax) 0%nat (l_shape l)) <> 0%nat ->
  (o = OC \/ o = OF <-> exists it, indexed_axes_new dflt l axes o = Ok it) /\ (o <> OC -> o <> OF -> indexed_axes_new dflt l axes o = Err InvalidValue).
Proof. intros dflt l axes v ax o A L Nv D ND S0. split; [|intros H1 H2; unfold indexed_axes_new; destruct o; easy]. split.
  - intros H. destruct H as [-> | ->]; unfold indexed_axes_new.
    + destruct (l_axes_iter dflt l axes v ax OC) as (it & vs & sxs & E & _); eauto. discriminate.
    + destruct (l_axes_iter dflt l axes v ax OF) as (it & vs & sxs & E & _); eauto. discriminate.
  - intros [it E]. unfold indexed_axes_new in E. destruct o; auto; discriminate E. Qed.
