(** Lebedev rules: the loop fills both vectors completely. *)
From Coq Require Import Reals.
From Verif Require Import Base Spec P_List M_Layout P_Layout P_Bounds M_Rearr P_Rearr M_Tensor P_Tensor P_Tri3 P_Dist M_Lebedev Spec_Lebedev.
Local Open Scope Z_scope.

Definition coords (g : list node) : list R := flat_map (fun n : node => let '(x, y, z, _) := n in [x; y; z]) g.
Definition weights (g : list node) : list R := map snd g.
Fixpoint triples (xs : list R) (v : R) : list node :=
  match xs with
  | x :: y :: z :: r => (x, y, z, v) :: triples r v
  | _ => []
  end.
Notation points := (sph_oh 0%R 1%R Rplus Rmult Rminus Ropp sqrt (sqrt (1 / 2)) (sqrt (1 / 3))).
Definition orbit (r : Z * (Z * Z * Z)) : list node :=
  let '(code, (a, b, v)) := r in
  match points code (decimal22 a) (decimal22 b) with Ok xs => triples xs (decimal22 v) | _ => [] end.
Definition grid (rows : list (Z * (Z * Z * Z))) : list node := flat_map orbit rows.
Definition known (r : Z * (Z * Z * Z)) : Prop := 0 <= fst r <= 5.
Lemma code_cases c : 0 <= c <= 5 -> c = 0 \/ c = 1 \/ c = 2 \/ c = 3 \/ c = 4 \/ c = 5.
Proof. lia. Qed.
Definition many (c : Z) : nat := nth (Z.to_nat c) [6; 12; 8; 24; 24; 48]%nat 0%nat.
Lemma points_known c a b v : 0 <= c <= 5 -> exists xs, points c a b = Ok xs /\ coords (triples xs v) = xs /\ weights (triples xs v) = repeat v (many c) /\ length xs = (3 * many c)%nat /\ length (triples xs v) = many c /\ code_length c = Ok (Z.of_nat (many c)) /\ sph_oh_weights c = Ok (Z.of_nat (many c)).
Proof. intro H. destruct (code_cases c H) as [-> | [-> | [-> | [-> | [-> | ->]]]]]; eexists; (split; [reflexivity|]); repeat split. Qed.
Lemma write_slice_ok (xs : list R) Q n m : (length xs <= n)%nat -> m = Z.of_nat (length xs) ->
  write_slice (map Some Q ++ repeat None n) (Z.of_nat (length Q)) m xs = Ok (map Some (Q ++ xs) ++ repeat None (n - length xs)).
Proof. intros H ->. unfold write_slice. rewrite app_length, map_length, repeat_length.
  replace ((0 <=? Z.of_nat (length Q)) && (0 <=? Z.of_nat (length xs)) && (Z.of_nat (length Q) + Z.of_nat (length xs) <=? Z.of_nat (length Q + n)) && (Z.of_nat (length xs) <=? Z.of_nat (length xs))) with true by lia.
  rewrite Nat2Z.id. replace (Z.to_nat (Z.of_nat (length Q) + Z.of_nat (length xs))) with (length Q + length xs)%nat by lia.
  rewrite firstn_app, map_length, Nat.sub_diag, firstn_O, app_nil_r, firstn_all2 by (rewrite map_length; lia).
  rewrite skipn_app, map_length, skipn_all2 by (rewrite map_length; lia). replace (length Q + length xs - length Q)%nat with (length xs) by lia. rewrite map_app, <- app_assoc. f_equal. f_equal. f_equal. cbn [app].
  replace n with (length xs + (n - length xs))%nat at 1 by lia. rewrite repeat_app, skipn_app, skipn_all2 by (rewrite repeat_length; lia). rewrite repeat_length. replace (length xs - length xs)%nat with 0%nat by lia. reflexivity. Qed.
Notation place := (place_orbit 0%R 1%R Rplus Rmult Rminus Ropp sqrt (sqrt (1 / 2)) (sqrt (1 / 3)) decimal22).
Definition state (g : list node) (m : nat) : list (option R) * list (option R) * Z :=
  (map Some (coords g) ++ repeat None (3 * m - length (coords g)), map Some (weights g) ++ repeat None (m - length (weights g)), Z.of_nat (length g)).
Lemma coords_length g : length (coords g) = (3 * length g)%nat.
Proof. unfold coords. induction g as [|(((x, y), z), v) g IH]; auto. cbn [flat_map app length]. rewrite IH. lia. Qed.
Lemma weights_length g : length (weights g) = length g.
Proof. apply map_length. Qed.
Lemma coords_app g h : coords (g ++ h) = coords g ++ coords h.
Proof. unfold coords. apply flat_map_app. Qed.
Lemma weights_app g h : weights (g ++ h) = weights g ++ weights h.
Proof. unfold weights. apply map_app. Qed.
Lemma orbit_length r : known r -> length (orbit r) = many (fst r).
Proof. destruct r as (c, ((a, b), v)). unfold known, orbit. cbn [fst]. intro H. destruct (points_known c (decimal22 a) (decimal22 b) (decimal22 v) H) as (xs & -> & _ & _ & _ & L & _). exact L. Qed.
Lemma place_ok g m r : known r -> (length g + length (orbit r) <= m)%nat -> place (state g m) r = Ok (state (g ++ orbit r) m).
Proof. intros K L. rewrite orbit_length in L by auto. destruct r as (c, ((a, b), v)). unfold known in K. cbn [fst] in K, L. unfold state, place_orbit.
  destruct (points_known c (decimal22 a) (decimal22 b) (decimal22 v) K) as (xs & E & C & W & L1 & L2 & -> & ->). cbn [bind]. rewrite E. cbn [bind].
  replace (Z.of_nat (length g) * 3) with (Z.of_nat (length (coords g))) by (rewrite coords_length; lia). rewrite write_slice_ok by (try rewrite coords_length; lia). cbn [bind].
  rewrite Nat2Z.id. rewrite <- (weights_length g). rewrite write_slice_ok by (rewrite ?weights_length, ?repeat_length; lia). cbn [bind].
  unfold orbit. rewrite E. rewrite coords_app, weights_app, C, W, app_length, !app_length, L2. rewrite (weights_length g), ?repeat_length. f_equal. f_equal; [|lia]. f_equal; f_equal; f_equal; lia. Qed.
Lemma places rows m : Forall known rows -> forall g, (length g + length (grid rows) <= m)%nat -> fold_res place rows (state g m) = Ok (state (g ++ grid rows) m).
Proof. induction 1 as [|r rows K F IH]; intros g L; cbn [fold_res].
  - cbn [grid flat_map]. now rewrite app_nil_r.
  - cbn [grid flat_map] in L. fold (grid rows) in L. rewrite app_length in L. rewrite place_ok by (auto; lia). cbn [bind]. rewrite IH by (rewrite app_length; lia). cbn [grid flat_map]. now rewrite app_assoc. Qed.
Lemma grid_make m rows : grid_table m = Ok rows -> Forall known rows -> 0 <= m -> Z.of_nat (length (grid rows)) = m ->
  make_angular_grid 0%R 1%R Rplus Rmult Rminus Ropp sqrt (sqrt (1 / 2)) (sqrt (1 / 3)) decimal22 m = Ok (coords (grid rows), weights (grid rows)).
Proof. intros E K M L. unfold make_angular_grid. rewrite E. cbn [bind].
  replace (uninit R (m * 3), uninit R m, 0) with (state [] (length (grid rows))) by (unfold state, uninit; cbn; f_equal; f_equal; f_equal; lia).
  rewrite places by (auto; cbn; lia). cbn [bind app]. unfold state. rewrite coords_length, weights_length, !Nat.sub_diag. cbn [repeat]. rewrite !app_nil_r, !assume_some. reflexivity. Qed.
Lemma coords_nth g i x y z v : nth_error g i = Some (x, y, z, v) -> nth_error (coords g) (i * 3 + 0) = Some x /\ nth_error (coords g) (i * 3 + 1) = Some y /\ nth_error (coords g) (i * 3 + 2) = Some z.
Proof. revert i. induction g as [|(((x0, y0), z0), v0) g IH]; intros [|i] H; try discriminate.
  - cbn in H. injection H as -> -> -> ->. auto.
  - cbn in H. exact (IH i H). Qed.
Lemma peek_nat {A} (l : list A) n : peek l (Z.of_nat n) = nth_error l n.
Proof. unfold peek. replace (Z.of_nat n <? 0) with false by lia. now rewrite Nat2Z.id. Qed.
Lemma grid_tensors g : exists q w, tensor_new (coords g) (new_contig Fixed [length (weights g); 3%nat] 0 RowMajor) = Ok q /\ tensor_new (weights g) (new_contig Fixed [length (weights g)] 0 RowMajor) = Ok w /\ holds_grid q w g.
Proof. assert (N : forall s (d : list R), length d = size s -> tensor_new d (new_contig Fixed s 0 RowMajor) = Ok (mkTensor d (new_contig Fixed s 0 RowMajor))).
  { intros s d L. destruct (contig_facts Fixed s RowMajor) as (G & _ & C & Sh & O). apply tensor_new_ok; auto. intros ix V. rewrite L. apply C. eauto. }
  do 2 eexists. split; [apply N|split; [apply N|]]; rewrite ?coords_length, ?weights_length; try (unfold size; cbn; lia).
  destruct (contig_facts Fixed [length g; 3%nat] RowMajor) as (_ & _ & _ & S1 & _), (contig_facts Fixed [length g] RowMajor) as (_ & _ & _ & S2 & _).
  split; [exact S1|split; [exact S2|]]. intros i x y z v H. assert (Li : (i < length g)%nat) by (apply nth_error_Some; congruence). destruct (coords_nth g i x y z v H) as (Hx & Hy & Hz). unfold at_, elem. cbn [t_data t_layout].
  rewrite !cell_addr, !peek_nat by lia. repeat split; auto. replace (addr (new_contig Fixed [length g] 0 RowMajor) [i]) with (Z.of_nat i).
  - rewrite peek_nat. exact (map_nth_error snd i g H).
  - unfold addr, new_contig, new_c_contig. cbn. now destruct (Z.of_nat i). Qed.
