(** The order in memory of packed and unpacked triangles *)
From Verif Require Import Base Spec Spec_Matmul Spec_Tri P_Index M_Layout P_Layout M_Indexer M_Rearr M_Iter M_Kernel M_Tensor P_Tensor Q_Copy M_Matmul M_Tri P_Tri3.
Local Open Scope Z_scope.

Definition kept_order (o : order) (l : layout) : order := match c_prefer l, f_prefer l with true, false => RowMajor | false, true => ColMajor | _, _ => o end.
Lemma tri_out_kept o lb s : tri_out_layout o lb s = new_contig Dyn s 0 (kept_order o lb).
Proof. unfold tri_out_layout, kept_order. destruct (c_prefer lb), (f_prefer lb), o; reflexivity. Qed.
Lemma new_layout {T} (d : list T) l r : tensor_new d l = Ok r -> t_layout r = l.
Proof. unfold tensor_new. intro H. destruct (check_strides l true) as [c| |]; cbn [bind] in H; try discriminate H. destruct (bounds_index l) as [bd| |]; cbn [bind] in H; try discriminate H. destruct (check _ _) as [c2| |]; cbn [bind] in H; try discriminate H. now injection H as <-. Qed.
Lemma l_pack_order : forall (T : Type) o (t : tensor T) u r, pack_tri_f o t u = Ok r ->
  (c_prefer (t_layout t) = true -> f_prefer (t_layout t) = false -> addrs RowMajor (t_layout r) = consecutive 0 (size (t_shape r))) /\
  (c_prefer (t_layout t) = false -> f_prefer (t_layout t) = true -> addrs ColMajor (t_layout r) = consecutive 0 (size (t_shape r))) /\
  (c_prefer (t_layout t) = f_prefer (t_layout t) -> addrs o (t_layout r) = consecutive 0 (size (t_shape r))).
Proof. intros T o t u r H. unfold pack_tri_f in H. match type of H with (let* _ := ?e in _) = _ => destruct e as [s| |]; try discriminate H end. cbn [bind] in H. set (la := tri_out_layout o (t_layout t) s) in *.
  destruct (bounds_index la) as [bd| |]; try discriminate H. cbn [bind] in H. destruct (device_pack_tri _ _ _ _ _ _) as [d| |]; try discriminate H. cbn [bind] in H. destruct (assume_init d) as [d'| |]; try discriminate H. cbn [bind] in H. apply new_layout in H.
  assert (E : t_layout r = new_contig Dyn s 0 (kept_order o (t_layout t))) by (rewrite H; apply tri_out_kept). assert (S : t_shape r = s) by (unfold t_shape; rewrite E; destruct (kept_order o (t_layout t)); reflexivity).
  rewrite S, E. unfold kept_order. split; [intros -> ->; apply contig_addrs|]. split; [intros -> ->; apply contig_addrs|]. intros ->. destruct (f_prefer (t_layout t)); apply contig_addrs. Qed.
Lemma l_unpack_order : forall (T : Type) (zero : T) conj opp o (t : tensor T) u sy r, unpack_tri_f zero conj opp o t u sy = Ok r ->
  (c_prefer (t_layout t) = true -> f_prefer (t_layout t) = false -> addrs RowMajor (t_layout r) = consecutive 0 (size (t_shape r))) /\
  (c_prefer (t_layout t) = false -> f_prefer (t_layout t) = true -> addrs ColMajor (t_layout r) = consecutive 0 (size (t_shape r))) /\
  (c_prefer (t_layout t) = f_prefer (t_layout t) -> addrs o (t_layout r) = consecutive 0 (size (t_shape r))).
Proof. intros T zero conj opp o t u sy r H. unfold unpack_tri_f in H. match type of H with (let* _ := ?e in _) = _ => destruct e as [s| |]; try discriminate H end. cbn [bind] in H. set (la := tri_out_layout o (t_layout t) s) in *.
  destruct (bounds_index la) as [bd| |]; try discriminate H. cbn [bind] in H. destruct (device_unpack_tri _ _ _ _ _ _ _ _ _ _) as [d| |]; try discriminate H. cbn [bind] in H. destruct (assume_init d) as [d'| |]; try discriminate H. cbn [bind] in H. apply new_layout in H.
  assert (E : t_layout r = new_contig Dyn s 0 (kept_order o (t_layout t))) by (rewrite H; apply tri_out_kept). assert (S : t_shape r = s) by (unfold t_shape; rewrite E; destruct (kept_order o (t_layout t)); reflexivity).
  rewrite S, E. unfold kept_order. split; [intros -> ->; apply contig_addrs|]. split; [intros -> ->; apply contig_addrs|]. intros ->. destruct (f_prefer (t_layout t)); apply contig_addrs. Qed.
