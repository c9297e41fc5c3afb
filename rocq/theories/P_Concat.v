(** Proofs about concat, stack and friends. *)
From Verif Require Import Base Spec P_Index P_List M_Layout P_Layout P_Bounds P_Contig P_Strides M_Indexer P_Indexer Q_Indexer M_Broadcast P_Broadcast M_Reshape M_Rearr M_Iter P_Iter P_Rearr P_BinOp Q_Rearr M_Kernel P_Kernel Q_Kernel M_Tensor P_Tensor Q_Tensor Q_Copy M_Manip Spec_Views P_Manip M_Matmul P_Matmul P_Matmul2 P_Tri P_Tri2 P_Tri3 M_Concat Spec_Concat.
Local Open Scope Z_scope.

(** ** the part of the result for one operand *)
Lemma part_ok l a off e : good l -> (a < ndim l)%nat -> (off + e <= nth a (l_shape l) 0)%nat ->
  concat_part l a off e = Ok (narrowed l a e (Z.of_nat off) 1) /\ good (narrowed l a e (Z.of_nat off) 1).
Proof. intros G Ha H. destruct (narrowed_good l a e (Z.of_nat off) 1 G Ha) as [Gn En]; [intros; lia|lia|]. split; auto.
  unfold concat_part, dim_narrow. rewrite (proj2 (check_axis_spec (Z.of_nat a) (ndim l) a)) by (split; auto). cbn [bind slice_is_full sl_step sl_start sl_stop unwrap_or].
  replace (1 =? 0) with false by reflexivity. destruct (Z.eqb_spec (Z.of_nat (nth a (l_shape l) 0%nat)) 0) as [E|E].
  - f_equal. unfold narrowed. replace e with (nth a (l_shape l) 0%nat) by lia. replace off with 0%nat by lia. rewrite upd_same. rewrite Z.mul_1_r, upd_same. destruct l; cbn. f_equal. lia.
  - replace (1 >? 0) with true by reflexivity. unfold narrow_pos. cbn [unwrap_or]. set (n := Z.of_nat (nth a (l_shape l) 0%nat)) in *.
    replace (Z.of_nat off <? 0) with false by lia. replace (Z.of_nat (off + e) <? 0) with false by lia.
    replace ((Z.of_nat off >? n) || (Z.of_nat off >? Z.of_nat (off + e))) with false by lia.
    replace (Z.of_nat (off + e) >? n) with false by lia. rewrite Z.quot_1_r. replace (Z.to_nat (Z.max (Z.of_nat (off + e) - Z.of_nat off + 1 - 1) 0)) with e by lia.
    exact En. Qed.
Lemma part_addr l a off e jx : good l -> (a < ndim l)%nat -> valid (upd (l_shape l) a e) jx ->
  addr (narrowed l a e (Z.of_nat off) 1) jx = addr l (upd jx a (off + nth a jx 0)%nat).
Proof. intros G Ha V. rewrite narrowed_addr; auto; [f_equal; f_equal; lia|apply G|lia]. Qed.
Lemma part_index l a off e jx : (a < ndim l)%nat -> (off + e <= nth a (l_shape l) 0)%nat -> valid (upd (l_shape l) a e) jx ->
  valid (l_shape l) (upd jx a (off + nth a jx 0)%nat) /\ (nth a jx 0 < e)%nat /\ nth a (upd jx a (off + nth a jx 0)%nat) 0%nat = (off + nth a jx 0)%nat.
Proof. intros Ha H V. pose proof (valid_length _ _ V) as L. rewrite upd_length in L. pose proof V as V'. apply valid_nth in V' as [_ V']. specialize (V' a). rewrite upd_length, nth_upd_same in V' by auto. specialize (V' Ha).
  split; [apply valid_upd with (d := e); auto; lia|]. split; auto. apply nth_upd_same. unfold ndim in Ha. lia. Qed.
Lemma part_inj l a off e : good l -> injective l -> (a < ndim l)%nat -> (off + e <= nth a (l_shape l) 0)%nat -> injective (narrowed l a e (Z.of_nat off) 1).
Proof. intros G J Ha H i j Vi Vj. cbn [narrowed l_shape] in Vi, Vj. rewrite !part_addr by auto. intro E. destruct (part_index l a off e i Ha H Vi) as (Wi & _ & Ni). destruct (part_index l a off e j Ha H Vj) as (Wj & _ & Nj).
  apply J in E; auto. assert (N : nth a i 0%nat = nth a j 0%nat) by (rewrite E in Ni; lia). apply (f_equal (fun v => upd v a (nth a i 0%nat))) in E. rewrite !P_Indexer.upd_upd in E. rewrite N in E at 2. now rewrite !upd_same in E. Qed.
Lemma part_inside l a off e n : good l -> inside l n -> (a < ndim l)%nat -> (off + e <= nth a (l_shape l) 0)%nat -> inside (narrowed l a e (Z.of_nat off) 1) n.
Proof. intros G I Ha H jx V. cbn [narrowed l_shape] in V. rewrite part_addr by auto. apply I. now apply (part_index l a off e jx). Qed.

(** ** sums of extents *)
Lemma start_0 {T} a (ts : list (tensor T)) : start a ts 0 = 0%nat.
Proof. reflexivity. Qed.
Lemma start_S {T} a (t : tensor T) ts i : start a (t :: ts) (S i) = (along a t + start a ts i)%nat.
Proof. reflexivity. Qed.
Lemma start_all {T} a (ts : list (tensor T)) : start a ts (length ts) = list_sum (map (along a) ts).
Proof. unfold start. now rewrite firstn_all. Qed.
Lemma locate {T} a (ts : list (tensor T)) : forall p, (p < start a ts (length ts))%nat -> exists i t, nth_error ts i = Some t /\ (start a ts i <= p < start a ts i + along a t)%nat.
Proof. induction ts as [|t ts IH]; intros p H; [cbn in H; lia|]. cbn [length] in H. rewrite start_S in H. destruct (Nat.lt_ge_cases p (along a t)).
  - exists 0%nat, t. rewrite start_0. split; auto. lia.
  - destruct (IH (p - along a t)%nat) as (i & u & E & R); [lia|]. exists (S i), u. rewrite start_S. split; auto. lia. Qed.

(** ** the loop over the operands *)
Definition part_of {T} (l : layout) (a : nat) (t : tensor T) : Prop := tensor_ok t /\ t_shape t = upd (l_shape l) a (along a t).
Definition filled {T} (l : layout) (a : nat) (ts : list (tensor T)) (c : list (option T)) (off : nat) (c' : list (option T)) : Prop :=
  length c' = length c /\
  (forall ix, valid (l_shape l) ix -> (nth a ix 0 < off)%nat \/ (off + start a ts (length ts) <= nth a ix 0)%nat -> elem c' l ix = elem c l ix) /\
  (forall i t jx, nth_error ts i = Some t -> valid (t_shape t) jx ->
     exists v, at_ t jx = Some v /\ elem c' l (upd jx a (off + start a ts i + nth a jx 0)%nat) = Some (Some v)).
Lemma updated_part {T} l a (t : tensor T) (c c1 : list (option T)) off : good l -> injective l -> inside l (length c) -> (a < ndim l)%nat -> part_of l a t -> (off + along a t <= nth a (l_shape l) 0)%nat ->
  updated2 c (narrowed l a (along a t) (Z.of_nat off) 1) (t_data t) (t_layout t) (fun _ y => Some y) c1 ->
  length c1 = length c /\ (forall ix, valid (l_shape l) ix -> (nth a ix 0 < off)%nat \/ (off + along a t <= nth a ix 0)%nat -> elem c1 l ix = elem c l ix) /\
  (forall jx, valid (t_shape t) jx -> exists v, at_ t jx = Some v /\ elem c1 l (upd jx a (off + nth a jx 0)%nat) = Some (Some v)).
Proof. intros G J I Ha [Ht S] B [[L U] Q]. split; auto. split.
  - intros ix V H. apply U. intros jx Vj E. cbn [narrowed l_shape] in Vj. rewrite part_addr in E by auto. destruct (part_index l a off (along a t) jx Ha B Vj) as (Wj & Hj & Nj). apply J in E; auto. subst ix. lia.
  - intros jx V. rewrite S in V. destruct (Q jx V) as (x & y & _ & Ey & E). exists y. split; auto. unfold elem in *. now rewrite part_addr in E by auto. Qed.
Lemma concat_fold {T} l a (ts : list (tensor T)) : good l -> injective l -> (a < ndim l)%nat -> Forall (part_of l a) ts -> forall c off, inside l (length c) -> (off + start a ts (length ts) <= nth a (l_shape l) 0)%nat ->
  exists c', fold_res (concat_step l a) ts (c, off) = Ok (c', off + start a ts (length ts))%nat /\ filled l a ts c off c'.
Proof. intros G J Ha F. induction F as [|t ts P F IH]; intros c off I B.
  - exists c. cbn [fold_res length]. rewrite start_0, Nat.add_0_r. split; auto. split; auto. split; auto. intros i t jx H. destruct i; discriminate.
  - cbn [length] in *. rewrite start_S in B. cbn [fold_res]. unfold concat_step at 1. cbn [fst snd]. change (extent (t_layout t) a) with (along a t).
    destruct (part_ok l a off (along a t) G Ha) as [-> Gp]; [lia|]. cbn [bind]. pose proof P as [Ht S]. apply tensor_ok_good in Ht as [Gt It].
    destruct (op2_kernel Dyn c (narrowed l a (along a t) (Z.of_nat off) 1) (t_data t) (t_layout t) (fun _ y => Some y) (t_shape t)) as (c1 & E & U); auto.
    { apply part_inside; auto; lia. } { apply part_inj; auto; lia. }
    unfold assign. rewrite E. cbn [bind]. destruct (updated_part l a t c c1 off) as (L1 & K1 & Q1); auto; [lia|].
    destruct (IH c1 (off + along a t)%nat) as (c' & E' & L' & K' & Q'); [now rewrite L1|lia|]. exists c'. rewrite E'. rewrite start_S. split; [do 2 f_equal; lia|].
    split; [congruence|]. split.
    + intros ix V H. cbn [length] in H. rewrite start_S in H. rewrite K' by (auto; lia). apply K1; auto. lia.
    + intros i u jx H V. destruct i as [|i].
      * injection H as <-. rewrite start_0, Nat.add_0_r. destruct (Q1 jx V) as (v & Hv & Hc). exists v. split; auto. rewrite K'; auto.
        -- rewrite S in V. destruct (part_index l a off (along a t) jx) as (W & _ & _); auto. lia.
        -- rewrite S in V. destruct (part_index l a off (along a t) jx) as (W & N & ->); auto; lia.
      * cbn in H. destruct (Q' i u jx H V) as (v & Hv & Hc). exists v. split; auto. rewrite start_S. rewrite <- Hc. f_equal. f_equal. lia. Qed.
