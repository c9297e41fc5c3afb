(** A dot product whose sums stay related ([G]) to elements of a commutative monoid: every entry is related to the combination of its
    products. *)
From Coq Require Import List Lia.
From Verif Require Import Base Spec Spec_Tensordot Spec_Vecdot M_Layout M_Tensor P_Tensor Q_Tensor M_Vecdot Q_Vecdot P_Param P_ParamDot Q_FloatVecdot Spec_FloatComplex.
Import ListNotations.

Section Shadowed.
  Context {A B C S : Type} (G : C -> S -> Prop) (zero : C) (add : C -> C -> C) (mul : A -> B -> C) (s0 : S) (sadd : S -> S -> S) (of : A -> B -> S).
  Context (M : comm_monoid s0 sadd) (G0 : G zero s0) (Ga : forall x y s s', G x s -> G y s' -> G (add x y) (sadd s s')) (Go : forall x y, G (mul x y) (of x y)).
  Notation sh ps := (total s0 sadd (map (fun p => of (fst p) (snd p)) ps)).
  Definition dot_shadow (o : order) (a : tensor A) (b : tensor B) pa pb mx v : Prop := exists ps, multiplied o a b pa pb mx ps /\ G v (sh ps).
  Lemma ds_vecdot o (a : tensor A) (b : tensor B) axes : tensor_ok a -> tensor_ok b -> size (t_shape a) <> 0 -> size (t_shape b) <> 0 ->
    match vecdot zero add mul o a b axes with
    | Ok c => tensor_ok c /\ exists pa pb, contractible o (t_shape a) (t_shape b) axes pa pb (t_shape c) /\ forall mx, valid (t_shape c) mx -> exists v, at_ c mx = Some v /\ dot_shadow o a b pa pb mx v
    | Err _ => ~ exists pa pb s, contractible o (t_shape a) (t_shape b) axes pa pb s
    | Panic => False
    end.
  Proof using M G0 Ga Go. intros Ta Tb Sa Sb. pose proof (l_vecdot _ _ _ s0 sadd of o a b axes M Ta Tb Sa Sb) as H.
    pose proof (two_vecdot G G zero add mul s0 sadd of G0 (fun x y x' y' => Ga x x' y y') Go (fun x y H => H) (fun x y p q H => Ga _ _ _ _ H (Go _ _)) o a b axes) as T.
    destruct T as [c d [El F]|e|]; auto. destruct H as (Td & pa & pb & Cn & H). split; [eapply ok_transfer; [exact El|now apply F2_length in F|exact Td]|]. unfold t_shape in *. rewrite El. exists pa, pb. split; auto.
    intros mx V. destruct (H mx V) as (v & Hv & xs & ys & E1 & E2 & ->). destruct (F2_elem G _ _ _ _ _ F Hv) as (x & Hx & Gx). exists x. split; [unfold at_; now rewrite El|]. exists (combine xs ys). split; [exists xs, ys; auto|exact Gx]. Qed.
  Lemma ds_rayon switch pool o (a : tensor A) (b : tensor B) axes r : tensor_ok a -> tensor_ok b -> size (t_shape a) <> 0 -> size (t_shape b) <> 0 -> injective (t_layout a) -> injective (t_layout b) -> vecdot_on_rayon zero add mul switch pool o a b axes r ->
    match r with
    | Ok c => tensor_ok c /\ injective (t_layout c) /\ exists pa pb, contractible o (t_shape a) (t_shape b) axes pa pb (t_shape c) /\ forall mx, valid (t_shape c) mx -> exists v, at_ c mx = Some v /\ dot_shadow o a b pa pb mx v
    | Err _ => ~ exists pa pb s, contractible o (t_shape a) (t_shape b) axes pa pb s
    | Panic => False
    end.
  Proof using M G0 Ga Go. intros Ta Tb Sa Sb Ja Jb Hr. pose proof (l_vecdot _ _ _ s0 sadd of o a b axes M Ta Tb Sa Sb) as H.
    destruct (two_vecdot_rayon G G zero add mul s0 sadd of G0 (fun x y x' y' => Ga x x' y y') Go (fun x y H => H) (fun x y p q H => Ga _ _ _ _ H (Go _ _)) switch pool o a b axes r Hr) as (r' & Hr' & T).
    destruct (l_vecdot_rayon _ _ _ s0 sadd of switch pool o a b axes r' M Ta Tb Sa Sb Ja Jb Hr') as [E J]. rewrite <- E in H.
    destruct T as [c d [El F]|e|]; auto. destruct H as (Td & pa & pb & Cn & H). split; [eapply ok_transfer; [exact El|now apply F2_length in F|exact Td]|]. split; [rewrite El; now apply J|]. unfold t_shape in *. rewrite El. exists pa, pb. split; auto.
    intros mx V. destruct (H mx V) as (v & Hv & xs & ys & E1 & E2 & ->). destruct (F2_elem G _ _ _ _ _ F Hv) as (x & Hx & Gx). exists x. split; [unfold at_; now rewrite El|]. exists (combine xs ys). split; [exists xs, ys; auto|exact Gx]. Qed.

  (** ** writing into an existing tensor: the shadow of an old cell carries its position, that of a sum the number of its products *)
  Definition marked : Type := S * (nat * (nat * nat)).
  Definition mk_zero : marked := (s0, (0, (0, 0))).
  Definition mk_add (x y : marked) : marked := (sadd (fst x) (fst y), (fst (snd x) + fst (snd y), (fst (snd (snd x)) + fst (snd (snd y)), snd (snd (snd x)) + snd (snd (snd y))))).
  Lemma mk_monoid : comm_monoid mk_zero mk_add.
  Proof using M. destruct M as (As & Co & I). split; [|split].
    - intros [x [n [i j]]] [y [n' [i' j']]] [z [n'' [i'' j'']]]. unfold mk_add. cbn [fst snd]. rewrite As, !Nat.add_assoc. reflexivity.
    - intros [x [n [i j]]] [y [n' [i' j']]]. unfold mk_add. cbn [fst snd]. rewrite Co, (Nat.add_comm i), (Nat.add_comm j), (Nat.add_comm n). reflexivity.
    - intros [x [n [i j]]]. unfold mk_add, mk_zero. cbn [fst snd]. rewrite I. reflexivity. Qed.
  Definition mk_mul (x : A) (y : B) : marked := (of x y, (1, (0, 0))).
  Lemma mk_total ps : total mk_zero mk_add (map (fun p => mk_mul (fst p) (snd p)) ps) = (sh ps, (length ps, (0, 0))).
  Proof. unfold total. induction ps as [|p ps IH]; [reflexivity|]. cbn [map fold_right]. rewrite IH. reflexivity. Qed.
  Definition mk_sum (x : C) (y : marked) : Prop := snd (snd y) = (0, 0) /\ G x (fst y).
  Definition mk_cell (old : list C) (x : C) (y : marked) : Prop :=
    mk_sum x y \/ (fst (snd (snd y)) = 1 /\ fst (snd y) = 0 /\ nth_error old (snd (snd (snd y))) = Some x) \/ (fst (snd (snd y)) <> 0 /\ fst (snd y) <> 0).
  Definition mk_old (i : nat) : marked := (s0, (0, (1, i))).
  Lemma mk_start (old : list C) : Forall2 (mk_cell old) old (map mk_old (seq 0 (length old))).
  Proof. assert (X : forall pre l, old = pre ++ l -> Forall2 (mk_cell old) l (map mk_old (seq (length pre) (length l)))).
    { intros pre l. revert pre. induction l as [|x l IH]; intros pre E; cbn [length seq map]; constructor.
      - right. left. cbn. split; auto. split; auto. rewrite E, nth_error_app2 by lia. rewrite Nat.sub_diag. reflexivity.
      - replace (Datatypes.S (length pre)) with (length (pre ++ [x])) by (rewrite app_length; cbn; lia). apply IH. rewrite <- app_assoc. exact E. }
    exact (X [] old eq_refl). Qed.
  Lemma ds_from o (c : tensor C) (a : tensor A) (b : tensor B) axes : tensor_ok c -> tensor_ok a -> tensor_ok b -> size (t_shape a) <> 0 -> size (t_shape b) <> 0 -> injective (t_layout c) ->
    match vecdot_from zero add mul o c a b axes with
    | Ok c' => t_layout c' = t_layout c /\ untouched_outside (t_layout c) (t_data c) (t_data c') /\
        exists pa pb, contractible o (t_shape a) (t_shape b) axes pa pb (t_shape c) /\ forall mx, valid (t_shape c) mx -> exists v, at_ c' mx = Some v /\ dot_shadow o a b pa pb mx v
    | Err _ => ~ exists pa pb, contractible o (t_shape a) (t_shape b) axes pa pb (t_shape c)
    | Panic => False
    end.
  Proof using M G0 Ga Go. intros Tc Ta Tb Sa Sb J. set (old := t_data c). set (ds := map mk_old (seq 0 (length old))). set (c2 := mkTensor ds (t_layout c)).
    assert (Fd : Forall2 (mk_cell old) old ds) by apply mk_start. assert (T2 : tensor_ok c2) by (eapply ok_transfer; [| |exact Tc]; [reflexivity|symmetry; now apply F2_length in Fd]).
    pose proof (l_vecdot_from _ _ _ mk_zero mk_add mk_mul o c2 a b axes mk_monoid T2 Ta Tb Sa Sb J) as H.
    assert (T : res_rel (tensor_rel (mk_cell old)) (vecdot_from zero add mul o c a b axes) (vecdot_from mk_zero mk_add mk_mul o c2 a b axes)).
    { apply (two_vecdot_from mk_sum (mk_cell old)).
      - split; [reflexivity|exact G0].
      - intros x y x' y' [E1 H1] [E2 H2]. split; [unfold mk_add; cbn [snd]; rewrite E1, E2; reflexivity|]. now apply Ga.
      - intros x y. split; [reflexivity|apply Go].
      - intros x y H'. now left.
      - intros x y p q [[E1 H1]|[(E1 & E2 & _)|[E1 E2]]].
        + left. split; [unfold mk_add; cbn [snd]; rewrite E1; reflexivity|]. apply Ga; [exact H1|apply Go].
        + right. right. unfold mk_add, mk_mul. cbn [fst snd]. rewrite E1, E2. split; discriminate.
        + right. right. unfold mk_add, mk_mul. cbn [fst snd]. lia.
      - split; [reflexivity|exact Fd]. }
    destruct T as [x y [El F]|e|]; auto. destruct H as (El2 & [Ul Un] & pa & pb & Cn & H). unfold t_shape in *. cbn [c2 t_layout t_data] in *. split; [congruence|]. pose proof (F2_length _ _ _ F) as LF. pose proof (F2_length _ _ _ Fd) as LD. split.
    - split; [fold old; congruence|]. intros p Hp. specialize (Un p Hp). unfold peek in *. destruct (p <? 0)%Z; [reflexivity|]. fold old. set (k := Z.to_nat p) in *.
      destruct (nth_error (t_data x) k) as [u|] eqn:Eu.
      + assert (Hk : k < length old) by (assert (nth_error (t_data x) k <> None) as Nn by congruence; apply nth_error_Some in Nn; lia).
        assert (Ed : nth_error ds k = Some (mk_old k)). { unfold ds. rewrite nth_error_map. rewrite (nth_error_nth' _ 0) by (rewrite seq_length; lia). cbn [option_map]. rewrite seq_nth by lia. reflexivity. }
        rewrite Ed in Un. assert (Q : mk_cell old u (mk_old k)) by exact (F2_nth_both _ _ _ _ _ _ F Eu Un).
        destruct Q as [[Q _]|[(_ & _ & Q)|[_ Q]]]; [discriminate Q|cbn in Q; now rewrite Q|now contradiction Q].
      + symmetry. apply nth_error_None in Eu. apply nth_error_None. lia.
    - exists pa, pb. split; auto. intros mx V. destruct (H mx V) as (v & Hv & xs & ys & E1 & E2 & Ev). rewrite mk_total in Ev. subst v. destruct (F2_elem (mk_cell old) _ _ _ _ _ F Hv) as (u & Hu & Q).
      exists u. split; [unfold at_; now rewrite El|]. exists (combine xs ys). split; [exists xs, ys; auto|]. destruct Q as [[_ Q]|[(Q & _)|[Q _]]]; [exact Q|discriminate Q|now contradiction Q]. Qed.
End Shadowed.
