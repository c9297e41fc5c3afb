(** slogdet and det. *)
From Coq Require Import String.
From Verif Require Import Base Spec Spec_Matmul Spec_Tri Spec_Blas P_Index P_List M_Layout P_Layout P_Bounds P_Contig P_Strides M_Indexer P_Indexer M_Broadcast P_Broadcast M_Rearr P_Rearr P_BinOp M_Iter P_Iter M_Kernel P_Kernel Q_Kernel M_Tensor P_Tensor Q_Tensor Q_Copy P_Arg P_Axes M_Matmul P_Matmul P_Matmul2 P_Matmul3 P_Matmul4 Q_Matmul M_Tri P_Tri P_Tri2 P_Tri3 P_Tri4 Q_Tri M_Fast P_Fast P_Fast2 P_Fast3 P_Creation M_Blas Spec_BlasApi P_Blas P_Blas2 P_Blas3 P_Blas4 M_Reduce Q_Reduce M_Linalg Spec_Linalg P_Linalg P_Linalg2.
Local Open Scope Z_scope.

Lemma row_major_1 k : row_major [k] = map (fun i => [i]) (seq 0 k).
Proof. cbn [row_major]. induction (seq 0 k) as [|i l IH]; [reflexivity|]. cbn in *. now rewrite IH. Qed.
Lemma vector_elements {T} (c : tensor T) k g : t_shape c = [k] -> (forall i, (i < k)%nat -> at_ c [i] = Some (g i)) -> elements (t_data c) (t_layout c) (row_major (t_shape c)) (map g (seq 0 k)).
Proof. intros S H. rewrite S, row_major_1. unfold elements. assert (X : forall l, (forall i, In i l -> (i < k)%nat) -> Forall2 (fun ix x => elem (t_data c) (t_layout c) ix = Some x) (map (fun i => [i]) l) (map g l)).
  { induction l as [|i l IH]; [constructor|]. intro Hl. constructor; [apply H, Hl; now left|]. apply IH. intros; apply Hl; now right. } apply X. intros i Hi. apply in_seq in Hi. lia. Qed.
Lemma good_1d k t off : (k <> 0%nat -> 0 <= off) -> (forall i, (i < k)%nat -> 0 <= off + t * Z.of_nat i) -> good (mkLayout [k] [t] off).
Proof. intros Ho H. split; [split; [reflexivity|]; cbn [l_shape l_offset]; intro N; apply Ho; unfold size in N; cbn in N; lia|]. split.
  - intros ix V. cbn [l_shape] in V. apply valid1_inv in V as (i & -> & Hi). specialize (H i Hi). unfold addr. cbn -[Z.mul Z.add Z.of_nat]. lia.
  - unfold check_strides. cbn [l_shape l_stride length Nat.eqb negb]. destruct (_ || _); [reflexivity|]. unfold sorted_axes. cbn [l_shape l_stride combine filter fst]. destruct (1 <? k)%nat; [|reflexivity].
    cbn [sort_by fold_right insert_sorted map fst snd strides_loop]. rewrite andb_true_r. destruct (Z.eqb_spec (Z.abs t) 0); [reflexivity|]. destruct (Z.ltb_spec 0 (Z.abs t)); [reflexivity|lia]. Qed.
Lemma diagonal_2 l m n : good l -> l_shape l = [m; n] -> nonempty m n ->
  exists d, diagonal l None None None = Ok d /\ good d /\ l_shape d = [Nat.min m n] /\ forall i, (i < Nat.min m n)%nat -> addr d [i] = addr l [i; i].
Proof. intros G E [N1 N2]. destruct l as [sh st off]. cbn [l_shape] in E. subst sh. pose proof G as ((Ls & Lo) & Nn & _). cbn [l_shape l_stride] in Ls. destruct st as [|s1 [|s2 [|]]]; try discriminate.
  assert (Go : good (mkLayout [Nat.min m n] [s1 + s2] off)).
  { apply good_1d. { intros _. apply Lo. cbn [l_shape]. unfold size. cbn. lia. } intros i Hi. specialize (Nn [i; i] (valid_pair m n i i ltac:(lia) ltac:(lia))). rewrite addr2 in Nn. lia. }
  exists (mkLayout [Nat.min m n] [s1 + s2] off). split; [|split; auto; split; auto; intros i Hi; rewrite addr2; unfold addr; cbn -[Z.mul Z.add Z.of_nat]; lia].
  unfold diagonal. unfold ndim. cbn [l_shape length Nat.ltb Nat.leb l_stride l_offset]. change (check_axis 0 2) with (Ok 0%nat). change (check_axis 1 2) with (Ok 1%nat). cbn [bind nth drop2 app]. cbv zeta.
  replace (0 <? 0) with false by reflexivity. rewrite andb_false_r. replace (0 <=? 0) with true by reflexivity. replace (0 <? Z.of_nat m) with true by lia. cbn [andb]. unfold as_usize. destruct (Z.ltb_spec (Z.min (Z.of_nat n - 0) (Z.of_nat m)) 0); [lia|]. replace (Z.to_nat (Z.min (Z.of_nat n - 0) (Z.of_nat m))) with (Nat.min m n) by lia.
  replace (off + s2 * 0) with off by lia. now apply layout_new_good. Qed.

Section Det.
  Context {T R : Type} (one : T) (dev dflt : order).
  Context (getrf_lib : nat -> nat -> list (list T) -> option ((nat -> nat -> T) * list Z)).
  Context (mul : T -> T -> T) (opp sgn : T -> T) (abs : T -> R) (radd : R -> R -> R) (rzero : R) (log : R -> R).
  Context (MM : comm_monoid one mul) (MR : comm_monoid rzero radd).
  Lemma map_vector {A C} (g : A -> C) (c : tensor A) k f : tensor_ok c -> t_shape c = [k] -> (forall i, (i < k)%nat -> at_ c [i] = Some (f i)) ->
    exists c', map_f Fixed dflt g c = Ok c' /\ tensor_ok c' /\ t_shape c' = [k] /\ forall i, (i < k)%nat -> at_ c' [i] = Some (g (f i)).
  Proof. intros Tc Sc Hc. destruct (l_map A C Fixed dflt g c Tc) as (c' & E & T' & S' & H). exists c'. split; auto. split; auto. split; [congruence|]. intros i Hi. rewrite Sc in H. destruct (H [i]) as (x & X & ->); [now apply valid1|]. rewrite Hc in X by auto. congruence. Qed.
  Lemma slogdet_ok r m n A : nonempty m n -> lapack_operand r m n A ->
    match getrf_lib m n (rows m n A) with
    | None => slogdet one dev dflt getrf_lib mul opp sgn abs radd rzero log r = Err Miscellaneous
    | Some (F, p) => slogdet one dev dflt getrf_lib mul opp sgn abs radd rzero log r =
        Ok (signed opp (flips 0 p) (total one mul (map (fun i => sgn (F i i)) (seq 0 (Nat.min m n)))), total rzero radd (map (fun i => log (abs (F i i))) (seq 0 (Nat.min m n))))
    end.
  Proof. intros NE HR. pose proof (getrf_ok dev dflt getrf_lib r m n A NE HR) as X. unfold slogdet. destruct (getrf_lib m n (rows m n A)) as [[F p]|]; [|now rewrite X]. destruct X as (y & -> & _ & (Ty & Hy & _)). cbn [bind fst snd ref_of] in *. cbv zeta. apply tensor_ok_good in Ty as (G & I).
    destruct (diagonal_2 _ m n G (holds_shape _ _ _ _ _ Hy) NE) as (d & -> & Gd & Sd & Hd). cbn [unwrap bind].
    assert (Td : tensor_ok (mkTensor (t_data (mview y)) d)). { apply tensor_ok_good. split; auto. cbn [t_layout t_data]. intros ix V. rewrite Sd in V. apply valid1_inv in V as (i & -> & Hi). rewrite Hd by auto. apply I. rewrite (holds_shape _ _ _ _ _ Hy). apply valid_pair; lia. }
    assert (Ed : forall i, (i < Nat.min m n)%nat -> at_ (mkTensor (t_data (mview y)) d) [i] = Some (F i i)). { intros i Hi. unfold at_, elem. cbn [t_data t_layout]. rewrite Hd by auto. apply Hy; lia. }
    destruct (map_vector abs _ _ _ Td Sd Ed) as (ca & -> & Ta & Sa & Ha). cbn [unwrap bind]. destruct (map_vector sgn _ _ _ Td Sd Ed) as (cs & -> & Ts & Ss & Hs). cbn [unwrap bind].
    rewrite (l_reduce_all T T T one mul (fun x => x) mul (fun x => x) Fixed cs _ MM (fun _ _ => eq_refl) Ts (vector_elements _ _ _ Ss Hs)). cbn [unwrap bind].
    destruct (map_vector log _ _ _ Ta Sa Ha) as (cl & -> & Tl & Sl & Hl). cbn [unwrap bind]. rewrite (l_reduce_all R R R rzero radd (fun x => x) radd (fun x => x) Fixed cl _ MR (fun _ _ => eq_refl) Tl (vector_elements _ _ _ Sl Hl)). cbn [unwrap bind].
    rewrite !map_id. rewrite map_length. reflexivity. Qed.
End Det.
