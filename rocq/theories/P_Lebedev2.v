(** Lebedev rules: what holds of every table, and the geometry of the grids. *)
From Coq Require Import Reals Lra Psatz.
From Verif Require Import Base Spec M_Layout M_Tensor M_Rearr M_Lebedev Spec_Lebedev P_Lebedev.
Local Open Scope Z_scope.

(** ** the tables *)
Definition scale : Z := 10 ^ 22.
Definition room (r : Z * (Z * Z * Z)) : bool :=
  let '(c, (a, b, v)) := r in
  (0 <=? c) && (c <=? 5) && (if c =? 3 then 2 * (a * a) <=? scale * scale else if c =? 4 then a * a <=? scale * scale else if c =? 5 then a * a + b * b <=? scale * scale else true).
Definition points_in (rows : list (Z * (Z * Z * Z))) : Z := fold_right (fun r s => Z.of_nat (many (fst r)) + s) 0 rows.
(** the sum of the weights is within 10^-14 of 1 *)
Definition total_weight (rows : list (Z * (Z * Z * Z))) : Z := fold_right (fun r s => let '(c, (_, _, v)) := r in Z.of_nat (many c) * v + s) 0 rows.
Definition table_good (e : Z * Z) : bool :=
  match grid_table (snd e) with
  | Ok rows => forallb room rows && (points_in rows =? snd e) && (0 <? snd e) && (10 ^ 14 * Z.abs (total_weight rows - scale) <=? scale)
  | _ => false
  end.
Lemma tables_good : forallb table_good order_to_degree_table = true.
Proof. vm_compute. reflexivity. Qed.
Lemma find_entry n e l : find (fun e : Z * Z => fst e =? n) l = Some e -> In e l /\ fst e = n.
Proof. intro H. apply find_some in H as (H & E). split; auto. lia. Qed.
Lemma order_entry n m : order_to_degree n = Ok m -> In (n, m) order_to_degree_table.
Proof. unfold order_to_degree. destruct (find _ _) as [(a, b)|] eqn:F; [|discriminate]. apply find_entry in F as (F & E). cbn [fst snd] in *. destruct (b =? 0); [discriminate|]. intro Q. injection Q as <-. now rewrite <- E. Qed.
Lemma order_facts n m : order_to_degree n = Ok m -> exists rows, grid_table m = Ok rows /\ Forall known rows /\ forallb room rows = true /\ Z.of_nat (length (grid rows)) = m /\ 0 < m /\ 10 ^ 14 * Z.abs (total_weight rows - scale) <= scale.
Proof. intro H. apply order_entry in H. pose proof tables_good as G. rewrite forallb_forall in G. apply G in H. unfold table_good in H. cbn [snd] in H. destruct (grid_table m) as [rows| |]; try discriminate.
  apply andb_prop in H as (H & W). apply andb_prop in H as (H & P). apply andb_prop in H as (R & L). exists rows. assert (K : Forall known rows).
  { apply Forall_forall. intros (c, ((a, b), v)) I. rewrite forallb_forall in R. apply R in I. unfold known. cbn [fst]. unfold room in I. lia. }
  split; auto. split; auto. split; auto. split; [|split; [lia|]].
  - apply Z.eqb_eq in L. rewrite <- L. clear -K. unfold points_in, grid. induction K as [|r rows K F IH]; auto. cbn [flat_map fold_right]. rewrite app_length, orbit_length by auto. lia.
  - apply Z.leb_le in W. exact W. Qed.
Lemma rule_runs n m : order_to_degree n = Ok m -> exists rows q w, grid_table m = Ok rows /\ exact_rule n = Ok (q, w) /\ holds_grid q w (grid rows) /\ Z.of_nat (length (grid rows)) = m.
Proof. intro H. destruct (order_facts n m H) as (rows & E & K & _ & L & P & _). destruct (grid_tensors (grid rows)) as (q & w & Q & W & G). exists rows, q, w. split; auto. split; auto.
  unfold exact_rule, lebedev_rule. rewrite H. cbn [bind]. rewrite (grid_make m rows) by (auto; lia). cbn [bind fst snd]. rewrite Q, W. reflexivity. Qed.

(** ** a grid is determined by the tensors *)
Lemma holds_unique q w g h : holds_grid q w g -> holds_grid q w h -> g = h.
Proof. intros (_ & S1 & G) (_ & S2 & H). rewrite S1 in S2. injection S2 as L. apply nth_ext with (d := (0%R, 0%R, 0%R, 0%R)) (d' := (0%R, 0%R, 0%R, 0%R)); auto. intros i Hi.
  destruct (nth_error g i) as [(((x, y), z), v)|] eqn:E; [|apply nth_error_None in E; lia]. destruct (nth_error h i) as [(((x', y'), z'), v')|] eqn:E'; [|apply nth_error_None in E'; lia].
  rewrite (nth_error_nth _ _ _ E), (nth_error_nth _ _ _ E'). apply G in E as (A & B & C & D). apply H in E' as (A' & B' & C' & D'). congruence. Qed.
Lemma gives_rows n g : gives n g -> exists m rows, order_to_degree n = Ok m /\ grid_table m = Ok rows /\ g = grid rows /\ Z.of_nat (length g) = m.
Proof. intros (q & w & E & G). destruct (order_to_degree n) as [m| |] eqn:D.
  - destruct (rule_runs n m D) as (rows & q' & w' & T & E' & G' & L). rewrite E in E'. injection E' as <- <-. rewrite (holds_unique _ _ _ _ G G'). exists m, rows. auto.
  - unfold exact_rule, lebedev_rule in E. rewrite D in E. discriminate.
  - unfold exact_rule, lebedev_rule in E. rewrite D in E. discriminate. Qed.

(** ** geometry *)
Local Open Scope R_scope.
Lemma scale_real : 10 ^ 22 = IZR scale.
Proof. unfold scale. rewrite <- pow_IZR with (n := 22%nat). reflexivity. Qed.
Lemma scale_pos : 0 < IZR scale.
Proof. apply IZR_lt. reflexivity. Qed.
Lemma decimal_square a : decimal22 a * decimal22 a = IZR (a * a) / IZR (scale * scale).
Proof. unfold decimal22. rewrite scale_real, !mult_IZR. pose proof scale_pos. field. lra. Qed.
Definition on_sphere (n : node) : Prop := let '(x, y, z, _) := n in x * x + y * y + z * z = 1.
Lemma ratio_le a : (a <= scale * scale)%Z -> IZR a / IZR (scale * scale) <= 1.
Proof. intro H. pose proof scale_pos. apply IZR_le in H. assert (0 < IZR (scale * scale)) by (rewrite mult_IZR; nra). apply Rmult_le_reg_r with (IZR (scale * scale)); auto. unfold Rdiv. rewrite Rmult_assoc, Rinv_l by lra. lra. Qed.
Lemma room_room r : room r = true -> let '(c, (a, b, v)) := r in known r /\ (c = 3%Z -> 0 <= 1 - 2 * decimal22 a * decimal22 a) /\ (c = 4%Z -> 0 <= 1 - decimal22 a * decimal22 a) /\ (c = 5%Z -> 0 <= 1 - decimal22 a * decimal22 a - decimal22 b * decimal22 b).
Proof. destruct r as (c, ((a, b), v)). unfold room. intro H. split; [unfold known; cbn; lia|]. split; [|split]; intros ->; cbn [Z.eqb Pos.eqb] in H.
  - assert (L : (2 * (a * a) <= scale * scale)%Z) by lia. apply ratio_le in L. rewrite Rmult_assoc, decimal_square. rewrite mult_IZR in L. lra.
  - assert (L : (a * a <= scale * scale)%Z) by lia. apply ratio_le in L. rewrite decimal_square. lra.
  - assert (L : (a * a + b * b <= scale * scale)%Z) by lia. apply ratio_le in L. rewrite !decimal_square. rewrite plus_IZR in L. lra. Qed.
Lemma half_square : sqrt (1 / 2) * sqrt (1 / 2) = 1 / 2.
Proof. apply sqrt_sqrt. lra. Qed.
Lemma third_square : sqrt (1 / 3) * sqrt (1 / 3) = 1 / 3.
Proof. apply sqrt_sqrt. lra. Qed.
Lemma orbit_sphere r : room r = true -> Forall on_sphere (orbit r).
Proof. intro H. apply room_room in H. destruct r as (c, ((a, b), v)). destruct H as (K & H3 & H4 & H5). unfold known in K. cbn [fst] in K. unfold orbit.
  pose proof half_square as Sh. pose proof third_square as St.
  destruct (code_cases c K) as [-> | [-> | [-> | [-> | [-> | ->]]]]]; unfold sph_oh; cbn [Z.eqb Pos.eqb triples].
  - repeat constructor; unfold on_sphere; ring.
  - set (s := sqrt (1 / 2)) in *. repeat constructor; unfold on_sphere; nra.
  - set (s := sqrt (1 / 3)) in *. repeat constructor; unfold on_sphere; nra.
  - specialize (H3 eq_refl). replace (1 + 1) with 2 by ring. apply sqrt_sqrt in H3. set (s := sqrt _) in *. repeat constructor; unfold on_sphere; nra.
  - specialize (H4 eq_refl). apply sqrt_sqrt in H4. set (s := sqrt _) in *. repeat constructor; unfold on_sphere; nra.
  - specialize (H5 eq_refl). apply sqrt_sqrt in H5. set (s := sqrt _) in *. repeat constructor; unfold on_sphere; nra. Qed.
Lemma grid_forall (P : node -> Prop) rows : (forall r, room r = true -> Forall P (orbit r)) -> forallb room rows = true -> Forall P (grid rows).
Proof. intros H R. apply Forall_forall. intros n I. apply in_flat_map in I as (r & I & J). rewrite forallb_forall in R. specialize (H r (R r I)). rewrite Forall_forall in H. auto. Qed.
Definition reflected (g : list node) : Prop := forall x y z v, In (x, y, z, v) g -> In (- x, y, z, v) g /\ In (y, x, z, v) g /\ In (x, z, y, v) g.
Ltac member := match goal with |- In ?x (?x :: _) => exact (in_eq _ _) | _ => apply in_cons; member end.
Lemma orbit_reflected r : known r -> reflected (orbit r).
Proof. destruct r as (c, ((a, b), v)). unfold known. cbn [fst]. intros K x y z w. unfold orbit. generalize (decimal22 v). generalize (decimal22 b). generalize (decimal22 a). clear a b v. intros a b v.
  destruct (code_cases c K) as [-> | [-> | [-> | [-> | [-> | ->]]]]]; unfold sph_oh; cbn [Z.eqb Pos.eqb triples]; try generalize (sqrt (1 / 2)); try generalize (sqrt (1 / 3)); try generalize (sqrt (1 - (1 + 1) * a * a)); try generalize (sqrt (1 - a * a)); try generalize (sqrt (1 - a * a - b * b)); intros;
    repeat match goal with H : In _ (_ :: _) |- _ => destruct H as [H | H] | H : In _ [] |- _ => destruct H end;
    match goal with H : _ = _ |- _ => injection H as <- <- <- <- end; rewrite ?Ropp_involutive, ?Ropp_0; (split; [member|split; member]). Qed.
