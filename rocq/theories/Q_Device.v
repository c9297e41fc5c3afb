(** Proofs about devices, moves between them and thread numbers. *)
From Verif Require Import Base Spec Spec_Device M_Layout M_Indexer M_Broadcast M_Reshape M_Rearr M_Iter M_Kernel M_Tensor M_Manip M_Faer M_Device P_Index P_Bounds P_Strides P_Broadcast Q_Broadcast P_Tensor Q_Kernel Q_Tensor Q_Copy Q_Manip Q_Faer.
Local Open Scope nat_scope.

Lemma order_eqb_eq a b : order_eqb a b = true <-> a = b.
Proof. destruct a, b; cbn; split; congruence. Qed.

(** ** C96 *)
Definition settled (d : rayon_device) : Prop := r_asked d = 0 \/ r_asked d = r_pool d.
Lemma configured_settled dflt h0 n0 h : settled (configured dflt h0 n0 h).
Proof. unfold configured. assert (H0 : settled (rayon_new dflt h0 n0)). { unfold settled, rayon_new, generate_pool. cbn. destruct (n0 =? 0) eqn:E; [left; now apply Nat.eqb_eq|now right]. }
  revert H0. generalize (rayon_new dflt h0 n0). induction h as [|s h IH]; intros d Hd; cbn [fold_left]; auto. apply IH. destruct s as [hr n|o].
  - unfold set_num_threads. destruct (r_asked d =? n) eqn:E; cbn [negb]; auto. unfold settled, generate_pool. cbn. destruct (n =? 0) eqn:E0; [left; now apply Nat.eqb_eq|now right].
  - exact Hd. Qed.
Lemma l_pool : forall dflt here n h, let d := configured dflt here n h in get_current_pool false d = Some (get_num_threads d).
Proof. intros dflt here n h d. pose proof (configured_settled dflt here n h) as S. fold d in S. unfold get_current_pool, get_num_threads. destruct S as [S|S]; destruct (r_asked d) eqn:E; auto; try congruence. Qed.
Lemma l_library : forall dflt here n h, let d := configured dflt here n h in library_threads false d = get_num_threads d /\ library_threads true d = 1.
Proof. intros dflt here n h d. pose proof (l_pool dflt here n h) as P. unfold library_threads. cbv zeta in P. fold d in P. now rewrite P. Qed.
Lemma l_order : forall dflt here n h, r_order (configured dflt here n h) = last_order dflt h.
Proof. intros dflt here n h. unfold configured, last_order. assert (H : r_order (rayon_new dflt here n) = dflt) by reflexivity. revert H. generalize (rayon_new dflt here n) as d. revert dflt. induction h as [|s h IH]; intros dflt d H; cbn [fold_left]; auto. apply IH.
  destruct s; cbn; auto. unfold set_num_threads. destruct (negb _); auto. Qed.

Lemma requests_snoc hr n h s : requests hr n (h ++ [s]) = requests hr n h ++ match s with SetThreads here n => [(here, n)] | SetOrder _ => [] end.
Proof. unfold requests. rewrite flat_map_app. cbn [flat_map]. rewrite app_nil_r. destruct s; cbn; now rewrite ?app_nil_r. Qed.
Lemma configured_snoc dflt hr n h s : configured dflt hr n (h ++ [s]) = match s with SetThreads here n' => set_num_threads here n' (configured dflt hr n h) | SetOrder o => set_default_order o (configured dflt hr n h) end.
Proof. unfold configured. rewrite fold_left_app. reflexivity. Qed.
Lemma steady_app rs rs' : steady (rs ++ rs') -> steady rs.
Proof. intros S i h h' A B. apply (S i h h'); rewrite nth_error_app1; auto; eapply nth_error_Some; congruence. Qed.
Lemma l_threads_partial : forall dflt here n h, steady (requests here n h) ->
  exists r, nth_error (requests here n h) (length (requests here n h) - 1) = Some r /\ get_num_threads (configured dflt here n h) = asks_for r.
Proof. intros dflt here n h St.
  enough (exists r, nth_error (requests here n h) (length (requests here n h) - 1) = Some r /\ r_asked (configured dflt here n h) = snd r /\ r_pool (configured dflt here n h) = asks_for r) as (r & E & A & P).
  { exists r. split; auto. unfold get_num_threads, asks_for in *. rewrite P, A. destruct (snd r); reflexivity. }
  revert St. induction h as [|s h IH] using rev_ind; intro St.
  - exists (here, n). split; auto.
  - rewrite requests_snoc in St |- *. rewrite configured_snoc. destruct (IH (steady_app _ _ St)) as (r & E & A & P). destruct s as [hr m|o].
    + rewrite app_length. cbn [length]. replace (length (requests here n h) + 1 - 1) with (length (requests here n h)) by lia. exists (hr, m). split; [rewrite nth_error_app2, Nat.sub_diag by lia; reflexivity|].
      unfold set_num_threads. destruct (r_asked (configured dflt here n h) =? m) eqn:Em; cbn [negb]; [|split; reflexivity]. apply Nat.eqb_eq in Em. split; [exact Em|]. rewrite P. unfold asks_for. cbn [fst snd]. rewrite <- A, Em. destruct (m =? 0) eqn:E0; auto. apply Nat.eqb_eq in E0. subst m.
      destruct r as [h1 m1]. cbn [fst snd] in *. rewrite E0 in A. subst m1. apply (St (length (requests here n h) - 1) h1 hr).
      * rewrite nth_error_app1; [exact E|]. eapply nth_error_Some. rewrite E. discriminate.
      * assert (length (requests here n h) <> 0) by (unfold requests; cbn; lia). rewrite nth_error_app2 by lia. replace (S (length (requests here n h) - 1) - length (requests here n h)) with 0 by lia. reflexivity || (rewrite E0; reflexivity).
    + rewrite app_nil_r. exists r. auto. Qed.
Lemma l_threads_refuted : exists dflt here n h here', h = [SetThreads here' 0] /\ get_num_threads (configured dflt here n h) <> here' /\ get_num_threads (configured dflt here n h) <> asks_for (here', 0).
Proof. exists RowMajor, 8, 0, [SetThreads 2 0], 2. split; [reflexivity|]. split; cbn; discriminate. Qed.
Lemma l_same_pooled : forall d e, same_pooled d e = true <-> get_num_threads d = get_num_threads e /\ r_order d = r_order e.
Proof. intros d e. unfold same_pooled. rewrite Bool.andb_true_iff, Nat.eqb_eq, order_eqb_eq. tauto. Qed.
Lemma l_same_equivalence : forall serial d e f, same_of serial d d = true /\ same_of serial d e = same_of serial e d /\ (same_of serial d e = true -> same_of serial e f = true -> same_of serial d f = true).
Proof. intros serial d e f. unfold same_of, same_device, same_ordered. destruct serial; rewrite ?Bool.andb_true_iff, ?Nat.eqb_eq, ?order_eqb_eq.
  - split; auto. split; [|congruence]. destruct (d_order d), (d_order e); reflexivity.
  - split; auto. split; [|intuition congruence]. rewrite Nat.eqb_sym. destruct (d_order d), (d_order e); reflexivity. Qed.
Lemma same_of_compatible serial d e : same_of serial d e = true <-> compatible serial d e.
Proof. unfold same_of, compatible, same_device, same_ordered. destruct serial; rewrite ?Bool.andb_true_iff, ?Nat.eqb_eq, ?order_eqb_eq; intuition congruence. Qed.

(** ** C97 *)
Lemma tensor_new_same {T} (t : tensor T) : tensor_ok t -> size (t_shape t) <> 0 \/ (0 <= l_offset (t_layout t) <= Z.of_nat (length (t_data t)))%Z -> tensor_new (t_data t) (t_layout t) = Ok t.
Proof. intros Ht O. destruct t as [d l]. unfold t_shape in O. cbn [t_data t_layout] in *. pose proof Ht as Ht'. apply tensor_ok_good in Ht' as [G I]. cbn [t_data t_layout] in *. destruct (Nat.eq_dec (size (l_shape l)) 0) as [Z0|Z0].
  - destruct O as [O|O]; [congruence|]. destruct G as (W & N & C). unfold tensor_new. rewrite C. cbn [bind]. rewrite bounds_index_eq by apply W. rewrite Z0. cbn [bind snd Nat.eqb]. unfold as_usize. replace (l_offset l <? 0)%Z with false by (symmetry; apply Z.ltb_ge; lia). cbn [snd]. replace (l_offset l <=? Z.of_nat (length d))%Z with true by (symmetry; apply Z.leb_le; lia). reflexivity.
  - apply tensor_new_ok; auto. Qed.
Lemma l_change_device_partial : forall (T : Type) (t : placed T) dev, tensor_ok (p_tensor t) -> size (t_shape (p_tensor t)) <> 0 \/ (0 <= l_offset (t_layout (p_tensor t)) <= Z.of_nat (length (t_data (p_tensor t))))%Z ->
  change_device t dev = Ok (mkPlaced (p_tensor t) dev) /\ to_device t dev = Ok (mkPlaced (p_tensor t) dev).
Proof. intros T [t d] dev Ht O. cbn [p_tensor] in *. assert (E : change_device (mkPlaced t d) dev = Ok (mkPlaced t dev)). { unfold change_device. cbn [p_tensor]. rewrite tensor_new_same; auto. } split; exact E. Qed.
Lemma l_to_device_views_partial : forall (T : Type) o ops (t : placed T) v dev, tensor_ok (p_tensor t) -> views o ops (p_tensor t) = Ok v -> size (t_shape v) <> 0 ->
  to_device (mkPlaced v (p_device t)) dev = Ok (mkPlaced v dev).
Proof. intros T o ops t v dev Ht V N. apply l_change_device_partial; cbn [p_tensor]; auto. destruct (l_views_inside T o ops (p_tensor t) v Ht V) as (_ & H & _). exact H. Qed.
Lemma l_to_device_empty_refuted : exists (t v : tensor Z) d dev, tensor_ok t /\ view RowMajor (VFlip (AxVal 1)) t = Ok v /\ tensor_ok v /\ t_shape v = [0; 4] /\ to_device (mkPlaced v d) dev = Panic.
Proof. exists (mkTensor [] (mkLayout [0; 4] [4; 1]%Z 0)), (mkTensor [] (mkLayout [0; 4] [4; -1]%Z 3)), (mkDevice 1 RowMajor), (mkDevice 1 ColMajor).
  assert (H : tensor_ok (mkTensor (@nil Z) (mkLayout [0; 4] [4; 1]%Z 0))) by concrete_tensor. assert (V : view RowMajor (VFlip (AxVal 1)) (mkTensor (@nil Z) (mkLayout [0; 4] [4; 1]%Z 0)) = Ok (mkTensor [] (mkLayout [0; 4] [4; -1]%Z 3))) by reflexivity.
  split; [exact H|]. split; [exact V|]. split; [|split; reflexivity]. apply (l_views_inside Z RowMajor [VFlip (AxVal 1)] _ _ H). unfold views. cbn [fold_res]. rewrite V. reflexivity. Qed.
Lemma into_owned_new {T} k dflt (t c : tensor T) : tensor_ok t -> into_owned k dflt t = Ok c -> tensor_new (t_data c) (t_layout c) = Ok c.
Proof. intros Ht. unfold into_owned. destruct (bounds_index (t_layout t)) as [[lo hi]| |] eqn:B; cbn [unwrap bind]; try discriminate. cbn [fst snd]. destruct (_ && _) eqn:C.
  - intro E. injection E as <-. rewrite !Bool.andb_true_iff, !Z.eqb_eq in C. apply tensor_ok_good in Ht as [(_ & _ & St) _]. destruct t as [d l]. cbn [t_data t_layout] in *. unfold tensor_new. rewrite St, B. cbn [bind snd]. replace (hi <=? Z.of_nat (length d))%Z with true by (symmetry; apply Z.leb_le; lia). reflexivity.
  - destruct (asarray k dflt t OK) as [c0| |] eqn:A; cbn [unwrap]; try discriminate. intro E. injection E as ->. revert A. unfold asarray. destruct (layout_for_array_copy _ _ _ _) as [lc| |]; cbn [bind]; try discriminate. destruct (assign _ _ _ _ _ _) as [d1| |]; cbn [bind]; try discriminate. destruct (assume_init d1) as [d2| |]; cbn [bind]; try discriminate. intro N. pose proof N as N'.
    unfold tensor_new in N'. destruct (check_strides lc true); cbn [bind] in N'; try discriminate. destruct (bounds_index lc); cbn [bind] in N'; try discriminate. destruct (_ <=? _)%Z; cbn [check bind] in N'; try discriminate. injection N' as <-. exact N. Qed.
Lemma l_into_device : forall (T : Type) k (t : placed T) dev, tensor_ok (p_tensor t) ->
  exists c, into_device k t dev = Ok (mkPlaced c dev) /\ tensor_ok c /\ t_shape c = t_shape (p_tensor t) /\ (forall ix, valid (t_shape c) ix -> at_ c ix = at_ (p_tensor t) ix) /\ length (t_data c) = size (t_shape c).
Proof. intros T k [t d] dev Ht. cbn [p_tensor] in *. destruct (l_into_owned T k (d_order d) t Ht) as (c & E & Tc & Sc & Q & L). exists c. unfold into_device. cbn [p_tensor p_device]. rewrite E. cbn [bind]. unfold change_device. cbn [p_tensor]. rewrite (into_owned_new k (d_order d) t c Ht E). rewrite Sc. cbn [unwrap bind]. auto. Qed.
Lemma l_device_round_trip : forall (T : Type) k (t : placed T) dev, tensor_ok (p_tensor t) ->
  exists c c', into_device k t dev = Ok (mkPlaced c dev) /\ into_device k (mkPlaced c dev) (p_device t) = Ok (mkPlaced c' (p_device t)) /\ t_shape c' = t_shape (p_tensor t) /\ forall ix, valid (t_shape c') ix -> at_ c' ix = at_ (p_tensor t) ix.
Proof. intros T k t dev Ht. destruct (l_into_device T k t dev Ht) as (c & E & Tc & Sc & Q & _). destruct (l_into_device T k (mkPlaced c dev) (p_device t) Tc) as (c' & E' & _ & Sc' & Q' & _). cbn [p_tensor] in *. exists c, c'. split; auto. split; auto. split; [congruence|]. intros ix V. rewrite Q' by auto. apply Q. congruence. Qed.

(** ** C98 *)
Lemma not_same serial d e : ~ compatible serial d e -> same_of serial d e = false.
Proof. rewrite <- same_of_compatible. now destruct (same_of serial d e). Qed.
Lemma l_binary_devices : forall (A B C : Type) serial k (g : A -> B -> C) (a : placed A) (b : placed B), tensor_ok (p_tensor a) -> tensor_ok (p_tensor b) ->
  let o := d_order (p_device a) in let sa := t_shape (p_tensor a) in let sb := t_shape (p_tensor b) in
  (compatible serial (p_device a) (p_device b) ->
   match binary_on serial k g a b with
   | Ok c => p_device c = p_device a /\ tensor_ok (p_tensor c) /\ broadcasts o sa sb (t_shape (p_tensor c)) /\
       forall ix, valid (t_shape (p_tensor c)) ix -> exists x y, at_ (p_tensor a) (source_index o sa ix) = Some x /\ at_ (p_tensor b) (source_index o sb ix) = Some y /\ at_ (p_tensor c) ix = Some (g x y)
   | Err _ => forall s, ~ broadcasts o sa sb s
   | Panic => False
   end) /\
  (~ compatible serial (p_device a) (p_device b) -> binary_on serial k g a b = Err DeviceMismatch).
Proof. intros A B C serial k g a b Ha Hb o sa sb. unfold binary_on. split; intro H.
  - apply same_of_compatible in H. rewrite H. cbn [check bind]. pose proof (l_binary A B C k o g _ _ Ha Hb) as L. fold o. destruct (op_refa_refb_func k o g (p_tensor a) (p_tensor b)) as [c|e|]; cbn [bind p_device p_tensor]; auto.
  - rewrite (not_same _ _ _ H). reflexivity. Qed.
Lemma l_binary_into_devices : forall (A B C : Type) serial k (g : C -> A -> B -> C) (c : placed C) (a : placed A) (b : placed B), tensor_ok (p_tensor c) -> tensor_ok (p_tensor a) -> tensor_ok (p_tensor b) -> injective (t_layout (p_tensor c)) ->
  let o := d_order (p_device c) in let sa := t_shape (p_tensor a) in let sb := t_shape (p_tensor b) in let sc := t_shape (p_tensor c) in
  (compatible serial (p_device c) (p_device a) -> compatible serial (p_device c) (p_device b) ->
   match binary_into_on serial k g c a b with
   | Ok c' => p_device c' = p_device c /\ broadcasts o sc sa sc /\ broadcasts o sc sb sc /\ t_layout (p_tensor c') = t_layout (p_tensor c) /\ untouched_outside (t_layout (p_tensor c)) (t_data (p_tensor c)) (t_data (p_tensor c')) /\
       forall ix, valid sc ix -> exists x y z, at_ (p_tensor c) ix = Some x /\ at_ (p_tensor a) (source_index o sa ix) = Some y /\ at_ (p_tensor b) (source_index o sb ix) = Some z /\ at_ (p_tensor c') ix = Some (g x y z)
   | Err _ => ~ (broadcasts o sc sa sc /\ broadcasts o sc sb sc)
   | Panic => False
   end) /\
  (~ (compatible serial (p_device c) (p_device a) /\ compatible serial (p_device c) (p_device b)) -> binary_into_on serial k g c a b = Err DeviceMismatch).
Proof. intros A B C serial k g c a b Hc Ha Hb J o sa sb sc. unfold binary_into_on. split.
  - intros H1 H2. apply same_of_compatible in H1, H2. rewrite H1, H2. cbn [check bind]. pose proof (l_with_output A B C k o g _ _ _ Hc Ha Hb J) as L. fold o. destruct (op_mutc_refa_refb_func k o g (p_tensor c) (p_tensor a) (p_tensor b)) as [c'|e|]; cbn [bind p_device p_tensor]; auto.
  - intro H. rewrite <- !same_of_compatible in H. destruct (same_of serial (p_device c) (p_device a)); cbn [check bind]; auto. destruct (same_of serial (p_device c) (p_device b)); cbn [check bind]; auto. exfalso. auto. Qed.
Lemma l_assign_devices : forall (A B : Type) serial k (g : A -> B -> A) (a : placed A) (b : placed B), tensor_ok (p_tensor a) -> tensor_ok (p_tensor b) -> injective (t_layout (p_tensor a)) ->
  let o := d_order (p_device a) in let sa := t_shape (p_tensor a) in let sb := t_shape (p_tensor b) in
  (compatible serial (p_device a) (p_device b) ->
   match assign_on serial k g a b with
   | Ok a' => p_device a' = p_device a /\ broadcasts o sa sb sa /\ t_layout (p_tensor a') = t_layout (p_tensor a) /\ untouched_outside (t_layout (p_tensor a)) (t_data (p_tensor a)) (t_data (p_tensor a')) /\
       forall ix, valid sa ix -> exists x y, at_ (p_tensor a) ix = Some x /\ at_ (p_tensor b) (source_index o sb ix) = Some y /\ at_ (p_tensor a') ix = Some (g x y)
   | Err _ => ~ broadcasts o sa sb sa
   | Panic => False
   end) /\
  (~ compatible serial (p_device a) (p_device b) -> assign_on serial k g a b = Err DeviceMismatch).
Proof. intros A B serial k g a b Ha Hb J o sa sb. unfold assign_on. split; intro H.
  - apply same_of_compatible in H. rewrite H. cbn [check bind]. pose proof (l_inplace_binary A B k o g _ _ Ha Hb J) as L. fold o. destruct (op_muta_refb_func k o g (p_tensor a) (p_tensor b)) as [c|e|]; cbn [bind p_device p_tensor]; auto.
  - rewrite (not_same _ _ _ H). reflexivity. Qed.
Lemma source_valid_right o s1 s2 s ix : broadcasts o s1 s2 s -> valid s ix -> valid s2 (source_index o s2 ix).
Proof. intros B V. set (l x := mkLayout x (repeat 0%Z (length x)) 0%Z). assert (W : forall x, wf (l x)) by (intro x; split; cbn; [apply repeat_length|lia]).
  pose proof (l_broadcast_layout o (l s1) (l s2) (W s1) (W s2)) as H. destruct (broadcast_layout (l s1) (l s2) o) as [[r1 r2]|e|]; [|exfalso; exact (H s B)|contradiction]. destruct H as (s' & B' & _ & _ & _ & _ & H). cbn [l l_shape] in *. rewrite (broadcasts_fun _ _ _ _ _ B' B) in H. apply (H ix V). Qed.
Lemma l_move_operate : forall (A B C : Type) serial k (g : A -> B -> C) (a : placed A) (b : placed B), tensor_ok (p_tensor a) -> tensor_ok (p_tensor b) ->
  let o := d_order (p_device a) in let sa := t_shape (p_tensor a) in let sb := t_shape (p_tensor b) in
  exists b', into_device k b (p_device a) = Ok b' /\
  match binary_on serial k g a b' with
  | Ok c => p_device c = p_device a /\ broadcasts o sa sb (t_shape (p_tensor c)) /\
      forall ix, valid (t_shape (p_tensor c)) ix -> exists x y, at_ (p_tensor a) (source_index o sa ix) = Some x /\ at_ (p_tensor b) (source_index o sb ix) = Some y /\ at_ (p_tensor c) ix = Some (g x y)
  | Err _ => forall s, ~ broadcasts o sa sb s
  | Panic => False
  end.
Proof. intros A B C serial k g a b Ha Hb o sa sb. destruct (l_into_device B k b (p_device a) Hb) as (c & E & Tc & Sc & Q & _). exists (mkPlaced c (p_device a)). split; auto.
  assert (Cp : compatible serial (p_device a) (p_device a)) by (split; auto). destruct (l_binary_devices A B C serial k g a (mkPlaced c (p_device a)) Ha Tc) as [L _]. specialize (L Cp). cbn [p_tensor] in L. rewrite Sc in L. fold sb o in L. unfold sb.
  destruct (binary_on serial k g a (mkPlaced c (p_device a))) as [r|e|]; auto. destruct L as (D & Tr & Br & H). split; auto. split; auto. intros ix V. destruct (H ix V) as (x & y & Hx & Hy & Hz). exists x, y. split; auto. split; auto. rewrite <- Hy. symmetry. apply Q. rewrite Sc.
  apply (source_valid_right o sa (t_shape (p_tensor b)) (t_shape (p_tensor r))); auto. Qed.

(** ** C99 *)
Lemma eval_scoped {S} (lib : library S) w : obeys lib -> proper w -> forall s, 0 < lib_get lib s -> exists s', eval lib w s = (scoped (lib_get lib s) w, s', true) /\ lib_get lib s' = lib_get lib s.
Proof. intros O. induction w as [| |k IH|n body IHb k IHk]; cbn [proper eval scoped]; intros P s Hs.
  - eauto.
  - contradiction.
  - destruct (IH P s Hs) as (s' & -> & E). eauto.
  - destruct P as (Pn & Pb & Pk). specialize (IHb Pb (lib_set lib n s)). rewrite (O n s Pn) in IHb. destruct (IHb Pn) as (s2 & -> & E2).
    specialize (IHk Pk (lib_set lib (lib_get lib s) s2)). rewrite (O _ s2 Hs) in IHk. destruct (IHk Hs) as (s4 & -> & E4). eauto. Qed.
Lemma l_scoped : forall (S : Type) (lib : library S) w s, obeys lib -> proper w -> 0 < lib_get lib s ->
  exists s', eval lib w s = (scoped (lib_get lib s) w, s', true) /\ lib_get lib s' = lib_get lib s.
Proof. intros S lib w s O P H. exact (eval_scoped lib w O P s H). Qed.
Lemma l_libraries_obey : obeys counting_library /\ obeys mkl_library /\ obeys kml_library /\ ~ obeys sequential_library.
Proof. split; [intros n s H; reflexivity|]. split; [intros [|n] s H; [lia|reflexivity]|]. split; [intros n s H; reflexivity|]. intro O. specialize (O 2 tt ltac:(lia)). discriminate. Qed.
Lemma l_sequential : forall w s, proper w -> exists seen, eval sequential_library w s = (seen, s, true) /\ Forall (eq 1) seen.
Proof. induction w as [| |k IH|n body IHb k IHk]; cbn [proper eval]; intros s P.
  - eauto.
  - contradiction.
  - destruct (IH s P) as (seen & -> & F). eexists. split; [reflexivity|]. constructor; auto.
  - destruct P as (_ & Pb & Pk). destruct (IHb (lib_set sequential_library n s) Pb) as (sb & -> & Fb). destruct (IHk (lib_set sequential_library (lib_get sequential_library s) (lib_set sequential_library n s)) Pk) as (sk & -> & Fk). eexists. split; [reflexivity|]. apply Forall_app. auto. Qed.
Lemma l_panic_refuted : exists w s seen s', eval counting_library w s = (seen, s', false) /\ w = With 1 Abort Stop /\ s' <> s.
Proof. exists (With 1 Abort Stop), 8, [], 1. split; [reflexivity|]. split; [reflexivity|]. discriminate. Qed.
Lemma l_mkl_pinned_refuted : exists w n m seen s', proper w /\ 0 < n /\ 0 < m /\ eval mkl_library w (n, None) = (seen, s', true) /\ lib_get mkl_library s' = n /\ lib_get mkl_library (m, None) = m /\ lib_get mkl_library (m, snd s') <> m.
Proof. exists (With 1 (Use Stop) Stop), 8, 4, [1], (8, Some 8). cbn. repeat split; auto; try lia. Qed.
Lemma l_kml_service_refuted : exists w b v seen s', proper w /\ 0 < b /\ 0 < v /\ eval kml_library w (b, v) = (seen, s', true) /\ s' = (b, b) /\ s' <> (b, v).
Proof. exists (With 1 (Use Stop) Stop), 8, 4, [1], (8, 8). cbn. repeat split; auto; try lia. intro E. discriminate. Qed.

(** what is left of one thread, run alone *)
Fixpoint alone (code : list instr) (saved : list nat) (g : nat) : list nat * nat :=
  match code with
  | [] => ([], g)
  | IRead :: code => alone code (g :: saved) g
  | IWrite n :: code => alone code saved n
  | IUse :: code => let p := alone code saved g in (g :: fst p, snd p)
  | IRestore :: code => match saved with n :: sv => alone code sv n | [] => ([], g) end
  end.
Lemma alone_compile w rest saved g : proper w -> alone (compile w ++ rest) saved g = (scoped g w ++ fst (alone rest saved g), snd (alone rest saved g)).
Proof. revert rest saved g. induction w as [| |k IH|n body IHb k IHk]; cbn [proper compile scoped]; intros rest saved g P.
  - cbn. now destruct (alone rest saved g).
  - contradiction.
  - cbn. rewrite IH by auto. reflexivity.
  - destruct P as (_ & Pb & Pk). cbn [app alone]. rewrite <- app_assoc. cbn [app]. rewrite IHb by auto. cbn [alone]. rewrite IHk by auto. cbn [fst snd]. now rewrite app_assoc. Qed.
Definition on_track (loc : nat -> nat) (cells : nat -> nat) (ws : list work) (m : machine) : Prop :=
  length (m_threads m) = length ws /\
  forall i t w, nth_error (m_threads m) i = Some t -> nth_error ws i = Some w ->
    th_seen t ++ fst (alone (th_code t) (th_saved t) (m_cells m (loc i))) = scoped (cells (loc i)) w /\ snd (alone (th_code t) (th_saved t) (m_cells m (loc i))) = cells (loc i).
Lemma nth_skip {A} (l : list A) n j : nth_error (skipn n l) j = nth_error l (n + j).
Proof. revert l. induction n as [|n IH]; intros [|a l]; cbn; auto. now destruct j. Qed.
Lemma nth_put {A} (l : list A) i x j : i < length l -> nth_error (firstn i l ++ x :: skipn (S i) l) j = if j =? i then Some x else nth_error l j.
Proof. intros H. destruct (j =? i) eqn:E.
  - apply Nat.eqb_eq in E. subst. rewrite nth_error_app2; rewrite firstn_length_le by lia; [|lia]. now rewrite Nat.sub_diag.
  - apply Nat.eqb_neq in E. destruct (Nat.lt_ge_cases j i).
    + rewrite nth_error_app1 by (rewrite firstn_length_le by lia; lia). revert i j H E H0. induction l as [|a l IH]; intros i j H E H0; [cbn in H; lia|]. destruct i; [lia|]. destruct j; [reflexivity|]. cbn [firstn nth_error]. apply IH; cbn in *; lia.
    + rewrite nth_error_app2; rewrite firstn_length_le by lia; [|lia]. replace (j - i) with (S (j - S i)) by lia. cbn [nth_error]. rewrite nth_skip. f_equal. lia. Qed.
Lemma step_on_track loc cells ws m i : (forall i j, loc i = loc j -> i = j) -> on_track loc cells ws m -> on_track loc cells ws (step loc m i).
Proof. intros Inj [L H]. unfold step. destruct (nth_error (m_threads m) i) as [t|] eqn:Et; [|split; auto]. assert (Li : i < length (m_threads m)) by (apply nth_error_Some; congruence).
  assert (Put : forall (x : thread), length (firstn i (m_threads m) ++ x :: skipn (S i) (m_threads m)) = length ws). { intro x. rewrite app_length. cbn [length]. rewrite firstn_length_le, skipn_length by lia. lia. }
  assert (Other : forall j n, j <> i -> set_cell (m_cells m) (loc i) n (loc j) = m_cells m (loc j)). { intros j n N. unfold set_cell. destruct (loc j =? loc i) eqn:E; auto. apply Nat.eqb_eq, Inj in E. contradiction. }
  assert (Own : forall n, set_cell (m_cells m) (loc i) n (loc i) = n). { intro n. unfold set_cell. now rewrite Nat.eqb_refl. }
  destruct (th_code t) as [|[|n| |] code] eqn:Ec; [split; auto| | | |destruct (th_saved t) as [|n sv] eqn:Es; [split; auto|]];
    (split; [apply Put|]; cbn [m_threads m_cells]; intros j t' w' Ht' Hw'; rewrite nth_put in Ht' by exact Li; destruct (j =? i) eqn:Ej; [apply Nat.eqb_eq in Ej; subst j; injection Ht' as <-; specialize (H i t w' Et Hw'); rewrite Ec, ?Es in H; cbn [th_code th_saved th_seen] in *; rewrite ?Own; cbn [alone] in H; auto|apply Nat.eqb_neq in Ej; rewrite ?Other by exact Ej; now apply H]).
  cbn [fst snd] in H. destruct H as [H1 H2]. split; auto. rewrite <- app_assoc. exact H1. Qed.
Lemma start_on_track loc cells ws : Forall proper ws -> on_track loc cells ws (start cells ws).
Proof. intros P. split; [cbn; apply map_length|]. cbn [start m_threads m_cells]. intros i t w Ht Hw. rewrite nth_error_map, Hw in Ht. injection Ht as <-. cbn [th_code th_saved th_seen]. pose proof (alone_compile w [] [] (cells (loc i))) as A. rewrite app_nil_r in A. rewrite A; [|rewrite Forall_forall in P; eapply P, nth_error_In; eauto]. cbn [alone fst snd]. now rewrite app_nil_r. Qed.
Lemma run_on_track loc cells ws schedule m : (forall i j, loc i = loc j -> i = j) -> on_track loc cells ws m -> on_track loc cells ws (run loc m schedule).
Proof. intros Inj. revert m. induction schedule as [|i r IH]; intros m H; cbn [run fold_left]; auto. apply IH, step_on_track; auto. Qed.
Lemma l_concurrent_local : forall loc cells ws schedule i t w, (forall i j, loc i = loc j -> i = j) -> Forall proper ws ->
  nth_error (m_threads (run loc (start cells ws) schedule)) i = Some t -> nth_error ws i = Some w ->
  (exists later, th_seen t ++ later = scoped (cells (loc i)) w) /\ (th_code t = [] -> th_seen t = scoped (cells (loc i)) w /\ m_cells (run loc (start cells ws) schedule) (loc i) = cells (loc i)).
Proof. intros loc cells ws schedule i t w Inj P Ht Hw. destruct (run_on_track loc cells ws schedule (start cells ws) Inj (start_on_track loc cells ws P)) as [_ H]. destruct (H i t w Ht Hw) as [H1 H2]. split; [eauto|]. intro E. rewrite E in H1, H2. cbn [alone fst snd] in H1, H2. rewrite app_nil_r in H1. auto. Qed.
Lemma l_concurrent_restore_refuted : exists (ws : list work) schedule, Forall proper ws /\ (let m := run (fun _ => 0) (start (fun _ => 8) ws) schedule in finished m /\ m_cells m 0 <> 8).
Proof. exists [With 1 (Use Stop) Stop; With 4 (Use Stop) Stop], [0; 0; 1; 1; 0; 0; 1; 1]. split; [repeat constructor|]. split; [vm_compute; repeat constructor|vm_compute; discriminate]. Qed.
Lemma l_concurrent_scope_refuted : exists (ws : list work) schedule t, Forall proper ws /\ nth_error ws 0 = Some (With 1 (Use Stop) Stop) /\ nth_error (m_threads (run (fun _ => 0) (start (fun _ => 8) ws) schedule)) 0 = Some t /\ th_seen t = [4].
Proof. exists [With 1 (Use Stop) Stop; With 4 (Use Stop) Stop], [0; 0; 1; 1; 0; 0; 1; 1]. eexists. split; [repeat constructor|]. split; [reflexivity|]. split; [vm_compute; reflexivity|reflexivity]. Qed.
