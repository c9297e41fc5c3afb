(** A library as assumed in Spec_Tblis exists: the sums computed naively. *)
From Coq Require Import Ascii Permutation.
From Verif Require Import Base Spec P_Index P_List M_Layout P_Layout P_Bounds P_Contig P_Strides P_Indexer P_Rearr P_Tensor P_Tri3 P_Arg M_Tensor M_Faer Spec_Tensordot M_Tensordot Q_Tensordot M_Tblis Spec_Tblis P_Tblis.
Local Open Scope nat_scope.

(** ** reading the subscripts *)
Fixpoint split_on (c : ascii) (l : list ascii) : list (list ascii) :=
  match l with [] => [[]] | x :: r => if Ascii.eqb x c then [] :: split_on c r else match split_on c r with h :: t => (x :: h) :: t | [] => [[x]] end end.
Definition parse (sub : list ascii) : list (list ascii) * list ascii :=
  match split_on "-"%char (filter (fun c => negb (Ascii.eqb c " "%char)) sub) with [l; r] => (split_on ","%char l, tl r) | _ => ([], []) end.
Lemma split_none c l : ~ In c l -> split_on c l = [l].
Proof. induction l as [|x l IH]; intro N; auto. cbn [split_on]. destruct (Ascii.eqb_spec x c) as [->|]; [destruct N; now left|]. rewrite IH; auto. intro. apply N. now right. Qed.
Lemma split_first c l r : ~ In c l -> split_on c (l ++ c :: r) = l :: split_on c r.
Proof. induction l as [|x l IH]; intro N; cbn [app split_on]; [now rewrite Ascii.eqb_refl|]. destruct (Ascii.eqb_spec x c) as [->|]; [destruct N; now left|]. rewrite IH; auto. intro. apply N. now right. Qed.
Lemma split_joined ins : ins <> [] -> (forall l, In l ins -> ~ In ","%char l) -> split_on ","%char (joined ins) = ins.
Proof. induction ins as [|l ins IH]; intros N H; [congruence|]. destruct ins as [|m ins]; [apply split_none, H; now left|]. change (joined (l :: m :: ins)) with (l ++ ","%char :: joined (m :: ins)).
  rewrite split_first by (apply H; now left). rewrite IH; auto; [discriminate|]. intros. apply H. now right. Qed.
Lemma letter_not c : is_letter c -> c <> ","%char /\ c <> "-"%char /\ c <> ">"%char.
Proof. intro L. split; [|split]; intros ->; unfold is_letter in L; vm_compute in L; lia. Qed.
Lemma joined_in ins c : In c (joined ins) -> c = ","%char \/ In c (concat ins).
Proof. induction ins as [|l ins IH]; [intros []|]. destruct ins as [|m ins]; [cbn; rewrite app_nil_r; auto|]. change (joined (l :: m :: ins)) with (l ++ ","%char :: joined (m :: ins)). change (concat (l :: m :: ins)) with (l ++ concat (m :: ins)). rewrite !in_app_iff. intros [I|[I|I]]; auto. destruct (IH I) as [|J]; auto. Qed.
Lemma parse_spells sub ins out : spells sub ins out -> well_named ins out -> ins <> [] -> parse sub = (ins, out).
Proof. intros S (F & _ & O) N. unfold parse. rewrite S. cbn [app]. rewrite Forall_forall in F. rewrite split_first.
  - rewrite split_none.
    + rewrite split_joined; auto. intros l I J. destruct (letter_not ","%char); [|congruence]. apply F. apply in_concat. eauto.
    + intros [E|I]; [discriminate|]. apply O, F, letter_not in I. tauto.
  - intro I. apply joined_in in I as [E|I]; [discriminate|]. apply F, letter_not in I. tauto. Qed.

(** ** combining *)
Fixpoint fold1 {T} (u : T) (f : T -> T -> T) (l : list T) : T := match l with [] => u | [x] => x | x :: r => f x (fold1 u f r) end.
Lemma combined_fold1 {T} (u : T) f l : combined u f l (fold1 u f l).
Proof. induction l as [|x l IH]; [constructor|]. destruct l as [|y l]; [constructor|]. change (fold1 u f (x :: y :: l)) with (f x (fold1 u f (y :: l))). eapply (combined_two _ _ _ [x] (y :: l)); [discriminate|discriminate| |constructor|auto]. reflexivity. Qed.
Lemma combined_perm {T} (u : T) f l m x : Permutation l m -> combined u f l x -> combined u f m x.
Proof. intros P C. destruct C as [|x|l l1 l2 x1 x2 N1 N2 Q C1 C2].
  - apply Permutation_nil in P. subst. constructor.
  - apply Permutation_length_1_inv in P. subst. constructor.
  - eapply combined_two; [exact N1|exact N2| |exact C1|exact C2]. etransitivity; [symmetry; exact P|exact Q]. Qed.

Lemma eq_Permutation {A} (l m : list A) : l = m -> Permutation l m.
Proof. now intros ->. Qed.
Lemma NoDup_map_in {A B} (f : A -> B) l : (forall a b, In a l -> In b l -> f a = f b -> a = b) -> NoDup l -> NoDup (map f l).
Proof. intros I N. induction N as [|x l Nx N IH]; cbn [map]; constructor; [|apply IH; intros; apply I; auto; now right]. intro J. apply in_map_iff in J as (y & E & J). apply Nx. rewrite <- (I y x); auto; [now right|now left]. Qed.
(** ** values *)
Lemma value_shape (ext : ascii -> nat) names c : In c names -> value_of names (map ext names) c = ext c.
Proof. induction names as [|n names IH]; intros []; cbn [map value_of]; destruct (Ascii.eqb_spec n c) as [->|]; auto; congruence. Qed.
Lemma value_lt (ext : ascii -> nat) c : forall names ix, valid (map ext names) ix -> In c names -> value_of names ix c < ext c.
Proof. induction names as [|n names IH]; intros ix V I; [destruct I|]. destruct ix as [|i ix]; [inversion V|]. inversion V; subst. cbn [value_of]. destruct (Ascii.eqb_spec n c) as [->|]; auto. destruct I; [congruence|]. now apply IH. Qed.
Lemma value_app_l l1 x1 l2 x2 c : In c l1 -> length l1 = length x1 -> value_of (l1 ++ l2) (x1 ++ x2) c = value_of l1 x1 c.
Proof. revert x1. induction l1 as [|n l1 IH]; intros [|i x1] I L; cbn in L; try lia; [destruct I|]. cbn [app value_of]. destruct (Ascii.eqb_spec n c); auto. apply IH; [destruct I; [congruence|auto]|lia]. Qed.
Lemma value_app_r l1 x1 l2 x2 c : ~ In c l1 -> length l1 = length x1 -> value_of (l1 ++ l2) (x1 ++ x2) c = value_of l2 x2 c.
Proof. revert x1. induction l1 as [|n l1 IH]; intros [|i x1] I L; cbn in L; try lia; auto. cbn [app value_of]. destruct (Ascii.eqb_spec n c); [destruct I; now left|]. apply IH; [|lia]. intro. apply I. now right. Qed.
(** the same values, enumerated by two orders of the names *)
Lemma reorder_values (ext : ascii -> nat) s t : NoDup s -> NoDup t -> (forall c, In c s <-> In c t) ->
  Permutation (map (fun kx => map (value_of s kx) t) (row_major (map ext s))) (row_major (map ext t)).
Proof. intros Ns Nt E.
  assert (B : forall s t, NoDup s -> NoDup t -> (forall c, In c s <-> In c t) -> forall kx, valid (map ext s) kx -> valid (map ext t) (map (value_of s kx) t) /\ map (value_of t (map (value_of s kx) t)) s = kx).
  { clear. intros s t Ns Nt E kx V. split.
    - assert (X : forall c, In c t -> value_of s kx c < ext c) by (intros c I; apply value_lt; auto; now apply E). clear - X. induction t as [|c t IH]; cbn [map]; constructor; [apply X; now left|]. apply IH. intros. apply X. now right.
    - apply valid_length in V. rewrite map_length in V. rewrite <- (value_map s kx) at 2 by auto. apply map_ext_in. intros c I. apply value_shape. now apply E. }
  apply NoDup_Permutation; [|apply NoDup_row_major|].
  - apply NoDup_map_in; [|apply NoDup_row_major]. intros a b Ia Ib Q. apply in_row_major in Ia, Ib. destruct (B s t Ns Nt E a Ia) as [_ Ea], (B s t Ns Nt E b Ib) as [_ Eb]. rewrite <- Ea, <- Eb. now rewrite Q.
  - intro x. rewrite in_map_iff, in_row_major. split.
    + intros (kx & <- & I). apply in_row_major in I. now apply B.
    + intro V. destruct (B t s Nt Ns (fun c => iff_sym (E c)) x V) as [V' E']. exists (map (value_of t x) s). split; auto. now apply in_row_major. Qed.

(** ** the library *)
Section Ref.
  Context {T : Type} (zero one : T) (add mul : T -> T -> T).
  Definition summed_of (ins : list (list ascii)) (out : list ascii) := filter (fun c => negb (existsb (Ascii.eqb c) out)) (nodup Ascii.ascii_dec (concat ins)).
  Definition factors_of (ins : list (list ascii)) (ops : list (tblis_tensor T)) (v : ascii -> nat) : list T :=
    map (fun p => match elem (tt_data (snd p)) (tblis_layout (snd p)) (map v (fst p)) with Some y => y | None => zero end) (combine ins ops).
  Definition extents (ins : list (list ascii)) (ops : list (tblis_tensor T)) (c : ascii) : nat := value_of (concat ins) (concat (map (fun t => map Z.to_nat (tt_shape t)) ops)) c.
  Definition entry (ext : ascii -> nat) (ins : list (list ascii)) (out : list ascii) (ops : list (tblis_tensor T)) (ix : list nat) : T :=
    let s := summed_of ins out in
    fold1 zero add (map (fun kx => fold1 one mul (factors_of ins ops (value_of (out ++ s) (ix ++ kx)))) (row_major (map ext s))).
  Definition written (l : layout) (buf : list T) (f : list nat -> T) : list T :=
    map (fun p => match find (fun ix => Z.eqb (addr l ix) (Z.of_nat p)) (row_major (l_shape l)) with Some ix => f ix | None => nth p buf zero end) (seq 0 (length buf)).
  Definition reference (threads : nat) (sub : list ascii) (ops : list (tblis_tensor T)) (rowmajor : bool) (o : option (tblis_tensor T)) : option (answer T) :=
    let '(ins, out) := parse sub in
    let ext := extents ins ops in
    match o with
    | None => let l := contiguous (if rowmajor then RowMajor else ColMajor) (map ext out) in
              Some (Fresh (written l (repeat zero (size (map ext out))) (entry ext ins out ops)) (map Z.of_nat (l_shape l)) (l_stride l))
    | Some t => Some (Wrote (written (tblis_layout t) (tt_data t) (entry ext ins out ops)))
    end.
  Lemma written_length l buf f : length (written l buf f) = length buf.
  Proof. unfold written. now rewrite map_length, seq_length. Qed.
  Lemma written_peek l buf f p : (0 <= p < Z.of_nat (length buf))%Z ->
    peek (written l buf f) p = Some (match find (fun ix => Z.eqb (addr l ix) p) (row_major (l_shape l)) with Some ix => f ix | None => nth (Z.to_nat p) buf zero end).
  Proof. intro H. unfold peek, written. replace (p <? 0)%Z with false by lia. rewrite nth_error_map. rewrite (nth_error_nth' _ 0) by (rewrite seq_length; lia). cbn [option_map]. rewrite seq_nth by lia. cbn [Nat.add]. now rewrite Z2Nat.id by lia. Qed.
  Lemma written_elem l buf f : inside l (length buf) -> injective l -> forall ix, valid (l_shape l) ix -> elem (written l buf f) l ix = Some (f ix).
  Proof. intros I J ix V. unfold elem. rewrite written_peek by (now apply I). f_equal. destruct (find _ _) as [jx|] eqn:F.
    - apply find_some in F as [F1 F2]. apply Z.eqb_eq in F2. apply in_row_major in F1. f_equal. now apply J.
    - exfalso. eapply find_none in F; [|apply in_row_major, V]. cbv beta in F. rewrite Z.eqb_refl in F. discriminate. Qed.
  Lemma written_outside l buf f : untouched_outside l buf (written l buf f).
  Proof. split; [apply written_length|]. intros p N. destruct (Z.leb_spec 0 p) as [P|P]; [|unfold peek; replace (p <? 0)%Z with true by lia; auto].
    destruct (Z.ltb_spec p (Z.of_nat (length buf))) as [Q|Q].
    - rewrite written_peek by lia. destruct (find _ _) as [jx|] eqn:F; [apply find_some in F as [F1 F2]; apply Z.eqb_eq in F2; apply in_row_major in F1; now apply N in F1|].
      unfold peek. replace (p <? 0)%Z with false by lia. symmetry. apply nth_error_nth'. lia.
    - unfold peek. replace (p <? 0)%Z with false by lia. rewrite !(proj2 (nth_error_None _ _)); auto; [lia|rewrite written_length; lia]. Qed.
  Lemma summed_spec ins out : NoDup (summed_of ins out) /\ forall c, In c (summed_of ins out) <-> In c (concat ins) /\ ~ In c out.
  Proof. split; [apply NoDup_filter, NoDup_nodup|]. intro c. unfold summed_of. rewrite filter_In, nodup_In, Bool.negb_true_iff, <- Bool.not_true_iff_false, existsb_exists. split; intros [H1 H2]; split; auto.
    - intro I. apply H2. exists c. split; auto. apply Ascii.eqb_refl.
    - intros (e & I & E). apply Ascii.eqb_eq in E. subst e. auto. Qed.
  Lemma factors_length ins ops v : length ins = length ops -> length (factors_of ins ops v) = length ins.
  Proof. intro L. unfold factors_of. rewrite map_length, combine_length. lia. Qed.
  Lemma factors_nth ext ins ops v : Forall2 (fun names t => readable t (map ext names)) ins ops -> (forall c, In c (concat ins) -> v c < ext c) ->
    forall k names, nth_error ins k = Some names -> nth_error (factors_of ins ops v) k = tblis_read ops k (map v names).
  Proof. intros F H. induction F as [|n t ins ops R F IH]; intros k names E; [now destruct k|]. destruct k as [|k].
    - cbn in E. injection E as <-. unfold tblis_read, factors_of. cbn [combine map nth_error fst snd]. destruct R as (S & _ & I). specialize (I (map v n)). unfold elem, peek.
      assert (V : valid (l_shape (tblis_layout t)) (map v n)). { cbn [tblis_layout l_shape]. rewrite S, nat_shape. assert (X : forall c, In c n -> v c < ext c) by (intros c J; apply H; cbn [concat]; apply in_app_iff; auto). clear - X. induction n as [|c n IH]; cbn [map]; constructor; [apply X; now left|]. apply IH. intros. apply X. now right. }
      apply I in V. replace (addr (tblis_layout t) (map v n) <? 0)%Z with false by lia. destruct (nth_error (tt_data t) _) eqn:Q; auto. apply nth_error_None in Q. lia.
    - cbn in E. unfold factors_of, tblis_read. cbn [combine map nth_error]. apply IH; auto. intros c J. apply H. cbn [concat]. apply in_app_iff. auto. Qed.
  Lemma entry_ext ext ext' ins out ops : (forall c, In c (concat ins) -> ext c = ext' c) -> forall ix, entry ext ins out ops ix = entry ext' ins out ops ix.
  Proof. intros H ix. unfold entry. replace (map ext (summed_of ins out)) with (map ext' (summed_of ins out)); auto. apply map_ext_in. intros c I. symmetry. apply H. now apply (summed_spec ins out) in I. Qed.
  Lemma factors_ext ins ops v v' : (forall c, In c (concat ins) -> v c = v' c) -> factors_of ins ops v = factors_of ins ops v'.
  Proof. intro H. unfold factors_of. apply map_ext_in. intros (n, t) I. cbn [fst snd]. replace (map v' n) with (map v n); auto. apply map_ext_in. intros c J. apply H. apply in_concat. exists n. split; auto. now apply in_combine_l in I. Qed.
  Lemma entry_einsum ext ins out ops ix : well_named ins out -> Forall2 (fun names t => readable t (map ext names)) ins ops -> valid (map ext out) ix ->
    is_einsum zero one add mul ext ins out (tblis_read ops) ix (entry ext ins out ops ix).
  Proof. intros (_ & No & Oi) F V s Ns Es. destruct (summed_spec ins out) as [Nt Et]. set (t := summed_of ins out) in *.
    assert (Lo : length out = length ix) by (apply valid_length in V; now rewrite map_length in V).
    exists (map (fun kx => fold1 one mul (factors_of ins ops (value_of (out ++ s) (ix ++ kx)))) (row_major (map ext s))). split.
    - eapply combined_perm; [|apply combined_fold1]. fold t. rewrite <- (reorder_values ext s t) by (auto; intro c; rewrite Es, Et; tauto). rewrite map_map. apply eq_Permutation, map_ext. intro kx. f_equal. apply factors_ext. intros c J.
      destruct (in_dec Ascii.ascii_dec c out) as [O|O]; [now rewrite !value_app_l by auto|]. rewrite !value_app_r by auto. apply value_shape. apply Et. auto.
    - assert (X : forall ks, (forall kx, In kx ks -> valid (map ext s) kx) -> Forall2 (fun kx t0 => exists fs, combined one mul fs t0 /\ length fs = length ins /\ (forall k names, nth_error ins k = Some names -> nth_error fs k = tblis_read ops k (map (value_of (out ++ s) (ix ++ kx)) names))) ks (map (fun kx => fold1 one mul (factors_of ins ops (value_of (out ++ s) (ix ++ kx)))) ks)).
      { induction ks as [|kx ks IH]; intro H; cbn [map]; constructor; [|apply IH; intros; apply H; now right]. exists (factors_of ins ops (value_of (out ++ s) (ix ++ kx))). split; [apply combined_fold1|]. split; [apply factors_length; now apply Forall2_length in F|].
        apply (factors_nth ext); auto. intros c J. apply value_lt; [rewrite map_app; apply valid_app; [now rewrite map_length|split; auto; apply H; now left]|]. apply in_app_iff. destruct (in_dec Ascii.ascii_dec c out); auto. right. apply Es. auto. }
      apply X. intros kx I. now apply in_row_major. Qed.
  Lemma reference_ok : einsum_library zero one add mul reference.
  Proof. intros threads sub ins out ext ops rm Th S W N F. unfold reference. rewrite (parse_spells sub ins out S W N).
    assert (E : forall c, In c (concat ins) -> extents ins ops c = ext c). { intros c I. unfold extents. replace (concat (map (fun t => map Z.to_nat (tt_shape t)) ops)) with (map ext (concat ins)); [now apply value_shape|]. clear - F. induction F as [|n t ins ops (R & _) F IH]; auto. cbn [concat map]. rewrite map_app, IH, R, nat_shape. auto. }
    assert (Eo : map (extents ins ops) out = map ext out) by (apply map_ext_in; intros c I; apply E; now apply W). rewrite Eo. split.
    - eexists. split; [reflexivity|]. destruct (contig_facts Dyn (map ext out) (if rm then RowMajor else ColMajor)) as (_ & J & C & _). rewrite <- contiguous_new in J, C. apply covers_inside in C. split; [rewrite written_length; apply repeat_length|].
      intros ix V. exists (entry ext ins out ops ix). split; [|now apply entry_einsum]. rewrite written_elem; auto; [|rewrite repeat_length; auto]. now rewrite (entry_ext _ ext).
    - intros o (Ro & _ & Io) J. eexists. split; [reflexivity|]. split; [apply written_outside|]. intros ix V. exists (entry ext ins out ops ix). split; [|now apply entry_einsum]. rewrite written_elem; auto; [now rewrite (entry_ext _ ext)|]. cbn [tblis_layout l_shape]. now rewrite Ro, nat_shape. Qed.
End Ref.
