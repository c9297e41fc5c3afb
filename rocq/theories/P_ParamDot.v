(** Two runs of vecdot over the same operands whose sums are related ([R]) give related cells ([Q]). *)
From Verif Require Import Base Spec M_Layout M_Indexer M_Broadcast M_Rearr M_Iter M_Kernel M_Tensor M_Reduce M_Vecdot P_Param.
Local Open Scope Z_scope.

Definition tensor_rel {C1 C2} (R : C1 -> C2 -> Prop) (x : tensor C1) (y : tensor C2) : Prop := t_layout x = t_layout y /\ Forall2 R (t_data x) (t_data y).
Lemma rr_new {C1 C2} (R : C1 -> C2 -> Prop) d1 d2 l : Forall2 R d1 d2 -> res_rel (tensor_rel R) (tensor_new d1 l) (tensor_new d2 l).
Proof. intro F. unfold tensor_new. rewrite (F2_length _ _ _ F). repeat (apply rr_same; intro). constructor. split; auto. Qed.
Lemma F2_elem {C1 C2} (R : C1 -> C2 -> Prop) d1 d2 l ix y : Forall2 R d1 d2 -> elem d2 l ix = Some y -> exists x, elem d1 l ix = Some x /\ R x y.
Proof. intros F. unfold elem, peek. destruct (addr l ix <? 0); [discriminate|]. generalize (Z.to_nat (addr l ix)). induction F as [|u v xs ys H F IH]; intros [|n]; cbn; try discriminate; auto. intros [= <-]. eauto. Qed.
Section Dot.
  Context {A B C1 C2 : Type} (R Q : C1 -> C2 -> Prop).
  Context (z1 : C1) (a1 : C1 -> C1 -> C1) (m1 : A -> B -> C1) (z2 : C2) (a2 : C2 -> C2 -> C2) (m2 : A -> B -> C2).
  Context (Hz : R z1 z2) (Ha : forall x y x' y', R x y -> R x' y' -> R (a1 x x') (a2 y y')) (Hm : forall x y, R (m1 x y) (m2 x y)).
  Context (HQ : forall x y, R x y -> Q x y) (HQp : forall x y p q, Q x y -> Q (a1 x (m1 p q)) (a2 y (m2 p q))).
  Notation RC := (Forall2 (opt_rel Q)).

  Lemma two_pair x y p : R x y -> R (add_pair a1 m1 x p) (add_pair a2 m2 y p). Proof. intro H. unfold add_pair. auto. Qed.
  Lemma two_slices a b oa ob n sp ma mb : res_rel R (sum_slices z1 a1 m1 a b oa ob n sp ma mb) (sum_slices z2 a2 m2 a b oa ob n sp ma mb).
  Proof. unfold sum_slices. apply rr_fold; auto. intros x y p H. destruct p as [|sa [|sb [|? ?]]]; try constructor. repeat (apply rr_same; intro). constructor. apply Ha; auto.
    apply (two_unrolled R R z1 (add_pair a1 m1) a1 (fun x => x) z2 (add_pair a2 m2) a2 (fun x => x)); auto. intros; now apply two_pair. Qed.
  Lemma two_strided a b n ta tb ma mb : res_rel R (sum_strided z1 a1 m1 a b n ta tb ma mb) (sum_strided z2 a2 m2 a b n ta tb ma mb).
  Proof. unfold sum_strided. apply rr_fold; auto. intros x y p H. repeat (apply rr_same; intro). constructor. now apply two_pair. Qed.
  Lemma two_cells a b oa ob sp ma mb : res_rel R (sum_cells z1 a1 m1 a b oa ob sp ma mb) (sum_cells z2 a2 m2 a b oa ob sp ma mb).
  Proof. unfold sum_cells. apply rr_fold; auto. intros x y p H. destruct p as [|sa [|sb [|? ?]]]; try constructor. repeat (apply rr_same; intro). constructor. now apply two_pair. Qed.
  Lemma two_put s1 s2 c d p : (forall x y, res_rel R (s1 x y) (s2 x y)) -> RC c d -> res_rel RC (put_sum s1 c p) (put_sum s2 d p).
  Proof. intros H F. unfold put_sum. destruct p as [|ic [|ia [|ib [|? ?]]]]; try constructor. eapply rr_bind; [apply H|]. intros; apply rr_set; auto. now apply HQ. Qed.
  Lemma rr_slice c d p n : RC c d -> res_rel RC (slice_get c p n) (slice_get d p n).
  Proof. intro F. unfold slice_get. rewrite (F2_length _ _ _ F). destruct (_ && _); [|constructor]. constructor. generalize (Z.to_nat p) as k. revert n. induction F; intros n k; [rewrite !skipn_nil, !firstn_nil; constructor|]. destruct k; cbn [skipn]; [|apply IHF]. destruct n; cbn [firstn]; constructor; auto. apply (IHF n 0%nat). Qed.
  Lemma two_zero c d ic n : RC c d -> res_rel RC (zero_slice z1 c ic n) (zero_slice z2 d ic n).
  Proof. intro F. unfold zero_slice. eapply rr_bind; [apply rr_slice, F|]. intros _ _ _. apply rr_fold; auto. intros; apply rr_set; auto. now apply HQ. Qed.
  Lemma two_cell ic c d q : RC c d -> res_rel RC (add_cell a1 m1 ic c q) (add_cell a2 m2 ic d q).
  Proof. intro F. unfold add_cell. eapply rr_bind; [apply rr_get, F|]. intros [x|] [y|] H; cbn in H; try easy; [|constructor]. apply rr_set; auto. now apply HQp. Qed.
  Lemma two_chunk_dot a b oa ob sp n c d ic ia ib : RC c d -> res_rel RC (add_chunk a1 m1 a b oa ob sp n c ic ia ib) (add_chunk a2 m2 a b oa ob sp n d ic ia ib).
  Proof. intro F. unfold add_chunk. apply rr_fold; auto. intros x y p H. destruct p as [|sa [|sb [|? ?]]]; try constructor. repeat (apply rr_same; intro). apply rr_fold; auto. intros; now apply two_cell. Qed.
  Lemma two_add_slices a b oa ob sp ch n c d p : RC c d -> res_rel RC (add_slices z1 a1 m1 a b oa ob sp ch n c p) (add_slices z2 a2 m2 a b oa ob sp ch n d p).
  Proof. intro F. unfold add_slices. destruct p as [|ic [|ia [|ib [|? ?]]]]; try constructor. eapply rr_bind; [apply two_zero, F|]. intros. apply rr_fold; auto. intros; now apply two_chunk_dot. Qed.
  Lemma two_slice_chunk a b oa ob sp c d p : RC c d -> res_rel RC (add_slice_chunk z1 a1 m1 a b oa ob sp c p) (add_slice_chunk z2 a2 m2 a b oa ob sp d p).
  Proof. intro F. unfold add_slice_chunk. destruct (fst p) as [|ic [|ia [|ib [|? ?]]]]; try constructor. eapply rr_bind; [apply two_zero, F|]. intros. now apply two_chunk_dot. Qed.
  Definition plan_rel (p : plan (C := C1)) (q : plan (C := C2)) : Prop :=
    match p, q with
    | Values t s, Values t' s' => t = t' /\ forall x y, res_rel R (s x y) (s' x y)
    | Slices t sp n, Slices t' sp' n' => t = t' /\ sp = sp' /\ n = n'
    | _, _ => False
    end.
  Lemma two_plan a b oa ob lc las lbs lam lbm : res_rel plan_rel (vecdot_plan z1 a1 m1 a b oa ob lc las lbs lam lbm) (vecdot_plan z2 a2 m2 a b oa ob lc las lbs lam lbm).
  Proof. unfold vecdot_plan. destruct (get_axes_composition las) as [[[? ?] ?] ?], (get_axes_composition lbs) as [[[? ?] ?] ?], (get_axes_composition lam) as [[[? ?] ?] ?], (get_axes_composition lbm) as [[[? ?] ?] ?], (get_axes_composition lc) as [[[? ?] ?] ?].
    destruct (common_prefix _ _); [destruct (common_prefix3 _ _ _)|].
    - apply rr_same. intro tasks. assert (G : res_rel plan_rel (let* sp := visited [las; lbs] in Ok (Values tasks (sum_cells z1 a1 m1 a b oa ob sp))) (let* sp := visited [las; lbs] in Ok (Values tasks (sum_cells z2 a2 m2 a b oa ob sp)))).
      { apply rr_same. intro sp. constructor. split; auto. intros; apply two_cells. }
      destruct (l_shape las) as [|n [|? ?]]; auto. destruct (l_stride las) as [|ta [|? ?]]; try constructor. destruct (l_stride lbs) as [|tb [|? ?]]; constructor. split; auto. intros; apply two_strided.
    - repeat (apply rr_same; intro). constructor. repeat split.
    - repeat (apply rr_same; intro). constructor. split; auto. intros; apply two_slices. Qed.
  Lemma two_serial_dot o c d lc a la b lb xa xb : RC c d -> res_rel RC (vecdot_serial z1 a1 m1 o c lc a la b lb xa xb) (vecdot_serial z2 a2 m2 o d lc a la b lb xa xb).
  Proof. intro F. unfold vecdot_serial. apply rr_same. intros [[[las lbs] lam] lbm]. eapply rr_bind; [apply two_plan|]. intros [t s|t sp n] [t' s'|t' sp' n'] H; cbn in H; try easy.
    - destruct H as [<- H]. apply rr_fold; auto. intros; now apply two_put.
    - destruct H as (<- & <- & <-). apply rr_fold; auto. intros; now apply two_add_slices. Qed.
  Lemma rr_order {X} (f1 : list (option C1) -> X -> res (list (option C1))) f2 xs c d r : (forall x y p, RC x y -> res_rel RC (f1 x p) (f2 y p)) -> RC c d -> in_some_order f1 xs c r -> exists r', in_some_order f2 xs d r' /\ res_rel RC r r'.
  Proof. intros H F (steps & P & ->). exists (fold_res f2 steps d). split; [exists steps; auto|]. now apply rr_fold. Qed.
  Lemma two_rayon_dot switch pool o c d lc a la b lb xa xb r : RC c d -> vecdot_rayon z1 a1 m1 switch pool o c lc a la b lb xa xb r ->
    exists r', vecdot_rayon z2 a2 m2 switch pool o d lc a la b lb xa xb r' /\ res_rel RC r r'.
  Proof. intros F. unfold vecdot_rayon. destruct (_ || _). { intros ->. eexists. split; [reflexivity|]. now apply two_serial_dot. }
    assert (G : res_rel plan_rel (let* ls := vecdot_layouts o lc la lb xa xb in let '(las, lbs, lam, lbm) := ls in vecdot_plan z1 a1 m1 a b (l_offset la) (l_offset lb) lc las lbs lam lbm)
      (let* ls := vecdot_layouts o lc la lb xa xb in let '(las, lbs, lam, lbm) := ls in vecdot_plan z2 a2 m2 a b (l_offset la) (l_offset lb) lc las lbs lam lbm)).
    { apply rr_same. intros [[[las lbs] lam] lbm]. apply two_plan. }
    destruct G as [[t s|t sp n] [t' s'|t' sp' n'] H|e|]; try (cbn in H; easy).
    - destruct H as [<- H]. apply rr_order; auto. intros; now apply two_put.
    - destruct H as (<- & <- & <-). apply rr_order; auto. intros; now apply two_slice_chunk.
    - intros ->. eexists. split; [reflexivity|constructor].
    - intros ->. eexists. split; [reflexivity|constructor]. Qed.
  Lemma two_prepare o a b axes : (exists xa xb lc n, vecdot_prepare (A := A) (B := B) (C := C1) o a b axes = Ok (xa, xb, lc, uninit C1 n) /\ vecdot_prepare (A := A) (B := B) (C := C2) o a b axes = Ok (xa, xb, lc, uninit C2 n)) \/
    (exists e, vecdot_prepare (A := A) (B := B) (C := C1) o a b axes = Err e /\ vecdot_prepare (A := A) (B := B) (C := C2) o a b axes = Err e) \/ (vecdot_prepare (A := A) (B := B) (C := C1) o a b axes = Panic /\ vecdot_prepare (A := A) (B := B) (C := C2) o a b axes = Panic).
  Proof. unfold vecdot_prepare. destruct (vecdot_axes _ _ _) as [[xa xb]|e|]; cbn [bind]; eauto. destruct (dim_split_axes (t_layout a) xa) as [sa|e|]; cbn [bind]; eauto. destruct (dim_split_axes (t_layout b) xb) as [sb|e|]; cbn [bind]; eauto.
    destruct (check _ _) as [?|e|]; cbn [bind]; eauto. destruct (broadcast_layout _ _ _) as [m|e|]; cbn [bind]; eauto. destruct (get_layout_for_binary_op _ _ _) as [lc|e|]; cbn [bind]; eauto. destruct (bounds_index lc) as [bd|e|]; cbn [bind]; eauto.
    left. do 4 eexists. split; reflexivity. Qed.
  Lemma two_vecdot o a b axes : res_rel (tensor_rel Q) (vecdot z1 a1 m1 o a b axes) (vecdot z2 a2 m2 o a b axes).
  Proof. unfold vecdot. destruct (two_prepare o a b axes) as [(xa & xb & lc & n & -> & ->)|[(e & -> & ->)|[-> ->]]]; cbn [bind]; try constructor. eapply rr_bind; [apply two_serial_dot, F2_uninit|]. intros c d H. eapply rr_bind; [apply rr_init, H|]. intros; now apply rr_new. Qed.
  Lemma two_vecdot_rayon switch pool o a b axes r : vecdot_on_rayon z1 a1 m1 switch pool o a b axes r -> exists r', vecdot_on_rayon z2 a2 m2 switch pool o a b axes r' /\ res_rel (tensor_rel Q) r r'.
  Proof. unfold vecdot_on_rayon. destruct (two_prepare o a b axes) as [(xa & xb & lc & n & -> & ->)|[(e & -> & ->)|[-> ->]]].
    - intros (c' & H & ->). destruct (two_rayon_dot _ _ _ _ (uninit C2 n) _ _ _ _ _ _ _ _ (F2_uninit Q n) H) as (d' & H' & Rc). eexists. split; [exists d'; split; [exact H'|reflexivity]|]. eapply rr_bind; [exact Rc|]. intros c d Hc. eapply rr_bind; [apply rr_init, Hc|]. intros; now apply rr_new.
    - intros ->. eexists. split; [reflexivity|constructor].
    - intros ->. eexists. split; [reflexivity|constructor]. Qed.
  Lemma two_vecdot_from o c d a b axes : tensor_rel Q c d -> res_rel (tensor_rel Q) (vecdot_from z1 a1 m1 o c a b axes) (vecdot_from z2 a2 m2 o d a b axes).
  Proof. intros [El F]. unfold vecdot_from, t_shape. rewrite <- El. apply rr_same. intros [xa xb]. repeat (apply rr_same; intro). eapply rr_bind.
    - apply two_serial_dot. clear - F. induction F; cbn; constructor; auto.
    - intros u v H. eapply rr_bind; [apply rr_init, H|]. intros; constructor. split; auto. Qed.
End Dot.
