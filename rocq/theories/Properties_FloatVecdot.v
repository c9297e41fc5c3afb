(** Property theorems about dot products of floating-point tensors along axes (C110).  Statements use Spec_Vecdot.v, Spec_Float.v,
    Spec_FloatReduce.v, Spec_FloatMatmul.v, Spec_FloatVecdot.v and the modelled entry points of M_FloatVecdot.v only. *)
From Coq Require Import ZArith Reals List Lra Lia.
From Flocq Require Import Core BinarySingleNaN.
From Verif Require Import Base Spec Spec_Views Spec_Tensordot Spec_Vecdot M_Layout M_Tensor P_Bounds P_Strides P_Tensor Q_Tensor M_Vecdot M_Float Spec_Float Spec_FloatReduce Spec_FloatMatmul Spec_FloatVecdot M_FloatVecdot P_FloatOps Q_FloatVecdot.
Import ListNotations.
Local Open Scope R_scope.

(** C110: vecdot of two tensors of f32 or f64 along any axes, with broadcasting of the others: it succeeds exactly for axes and shapes that fit, and each entry whose factors are finite and far from overflow is finite and within ((1 + u)^K - 1) times the sum of the magnitudes of its K products, and an underflow term, of the exact sum of the products.  Missing: empty operands (see C54_empty_refuted). *)
Theorem C110_vecdot_partial : forall t o (a b : tensor (float t)) axes, tensor_ok a -> tensor_ok b -> size (t_shape a) <> 0%nat -> size (t_shape b) <> 0%nat ->
  match fvecdot o a b axes with
  | Ok c => tensor_ok c /\ exists pa pb, contractible o (t_shape a) (t_shape b) axes pa pb (t_shape c) /\ forall mx, valid (t_shape c) mx ->
      exists v ps, at_ c mx = Some v /\ paired o a b pa pb mx ps /\ (finite_pairs ps -> dot_no_overflow ps -> dots_to ps v)
  | Err _ => ~ exists pa pb s, contractible o (t_shape a) (t_shape b) axes pa pb s
  | Panic => False
  end.
Proof. exact l_fvecdot. Qed.
(** the rows of [[1, 2, 3], [4, 5, 6]] times [1, 10, 100] *)
Definition vx_a : tensor (float F64) := mkTensor [of_int 1; of_int 2; of_int 3; of_int 4; of_int 5; of_int 6] (mkLayout [2; 3]%nat [3; 1]%Z 0).
Definition vx_b : tensor (float F64) := mkTensor [of_int 1; of_int 10; of_int 100] (mkLayout [3]%nat [1]%Z 0).
Definition vx_ps : list (float F64 * float F64) := [(of_int 1, of_int 1); (of_int 2, of_int 10); (of_int 3, of_int 100)].
Lemma vx_int z : (Z.abs z <= 2 ^ 53)%Z -> val (of_int z : float F64) = IZR z /\ finite (of_int z : float F64). Proof. apply (int_val F64). Qed.
Lemma vx_unit : 0 <= unit_roundoff F64 <= 1. Proof. unfold unit_roundoff. split; [apply bpow_ge_0|]. change 1 with (two 0). apply bpow_le. cbn. discriminate. Qed.
Lemma vx_small : 0 <= smallest F64 <= 1. Proof. unfold smallest. split; [apply bpow_ge_0|]. change 1 with (two 0). apply bpow_le. cbn. discriminate. Qed.
Lemma vx_rounded k : 0 <= rounded F64 k <= 2 ^ k.
Proof. unfold rounded. pose proof vx_unit. split; [apply pow_le; lra|apply pow_incr; lra]. Qed.
Lemma vx_big : 4096 <= two (emax F64). Proof. change 4096 with (two 12). apply bpow_le. cbn. discriminate. Qed.
Lemma vx_pairs : finite_pairs vx_ps /\ exact_dot vx_ps = 321 /\ dot_magnitude vx_ps = 321 /\ dot_no_overflow vx_ps.
Proof. destruct (vx_int 1) as [A1 A2]; [discriminate|]. destruct (vx_int 2) as [B1 B2]; [discriminate|]. destruct (vx_int 3) as [C1 C2]; [discriminate|]. destruct (vx_int 10) as [D1 D2]; [discriminate|]. destruct (vx_int 100) as [E1 E2]; [discriminate|].
  assert (M : dot_magnitude vx_ps = 321). { unfold dot_magnitude, vx_ps, rsum. cbn [map fold_right fst snd]. rewrite A1, B1, C1, D1, E1. rewrite !Rabs_pos_eq by lra. lra. }
  split; [repeat constructor; auto|]. split; [unfold exact_dot, vx_ps, rsum; cbn [map fold_right fst snd]; rewrite A1, B1, C1, D1, E1; lra|]. split; [exact M|].
  unfold dot_no_overflow, dot_underflow. rewrite M. cbn [length vx_ps Nat.sub]. pose proof (vx_rounded 3) as G2. pose proof (vx_rounded 2) as G1. pose proof vx_small as S0. pose proof vx_big as B. cbn [pow] in G2, G1. replace (INR 3) with 3 by (cbn; lra).
  assert (3 * rounded F64 2 * smallest F64 <= 12 * 1) by (apply Rmult_le_compat; lra). lra. Qed.
Lemma vx_ok : tensor_ok vx_a /\ tensor_ok vx_b /\ injective (t_layout vx_a) /\ injective (t_layout vx_b).
Proof. split; [concrete_tensor|]. split; [concrete_tensor|]. split; [apply not_broadcasted; [apply (good_new [2; 3]%nat [3; 1]%Z 0); [lia|vm_compute; reflexivity]|reflexivity]|apply not_broadcasted; [apply (good_new [3]%nat [1]%Z 0); [lia|vm_compute; reflexivity]|reflexivity]]. Qed.
Definition vx_all (r : res (tensor (float F64))) (zs : list Z) : bool := match r with Ok t => forallb (fun p => feq (fst p) (of_int (snd p))) (combine (t_data t) zs) && (length (t_data t) =? length zs)%nat | _ => false end.
Example C110_example : tensor_ok vx_a /\ tensor_ok vx_b /\ size (t_shape vx_a) <> 0%nat /\ size (t_shape vx_b) <> 0%nat /\ paired RowMajor vx_a vx_b [1]%nat [0]%nat [0]%nat vx_ps /\ finite_pairs vx_ps /\ dot_no_overflow vx_ps /\
  vx_all (fvecdot RowMajor vx_a vx_b PairNone) [321; 654]%Z = true /\ fvecdot RowMajor vx_a vx_b (PairVal 0) = Err InvalidLayout.
Proof. destruct vx_ok as (A1 & A2 & _). destruct vx_pairs as (P1 & _ & _ & P2). split; [exact A1|]. split; [exact A2|]. split; [discriminate|]. split; [discriminate|]. split.
  { exists [of_int 1; of_int 2; of_int 3], [of_int 1; of_int 10; of_int 100]. split; [repeat constructor|]. split; [repeat constructor|reflexivity]. } split; [exact P1|]. split; [exact P2|]. split; vm_compute; reflexivity. Qed.
Print Assumptions C110_vecdot_partial.

(** C110: if the elements are multiples of 2^j and of 2^k (for j = k = 0: integers) and the magnitudes of the products of an entry add up to at most 2^(j + k + 24) or 2^(j + k + 53), the entry is exact.  Missing: as above. *)
Theorem C110_vecdot_exact_partial : forall t j k o (a b : tensor (float t)) axes, (3 - emax t - prec t <= j + k)%Z -> (j + k + prec t < emax t)%Z -> tensor_ok a -> tensor_ok b -> size (t_shape a) <> 0%nat -> size (t_shape b) <> 0%nat ->
  match fvecdot o a b axes with
  | Ok c => tensor_ok c /\ exists pa pb, contractible o (t_shape a) (t_shape b) axes pa pb (t_shape c) /\ forall mx, valid (t_shape c) mx ->
      exists v ps, at_ c mx = Some v /\ paired o a b pa pb mx ps /\ (multiple_pairs j k ps -> dot_magnitude ps <= two (j + k + prec t) -> finite v /\ val v = exact_dot ps)
  | Err _ => ~ exists pa pb s, contractible o (t_shape a) (t_shape b) axes pa pb s
  | Panic => False
  end.
Proof. exact l_fvecdot_exact. Qed.
Example C110_exact_example : (3 - emax F64 - prec F64 <= 0 + 0)%Z /\ (0 + 0 + prec F64 < emax F64)%Z /\ multiple_pairs 0 0 vx_ps /\ dot_magnitude vx_ps <= two (0 + 0 + prec F64).
Proof. split; [cbn; lia|]. split; [cbn; lia|]. split.
  - assert (M : forall z, (Z.abs z <= 2 ^ 53)%Z -> finite (of_int z : float F64) /\ multiple_of 0 (val (of_int z : float F64))) by (intros z Hz; destruct (vx_int z Hz) as [V F]; split; [exact F|]; exists z; rewrite V; change (two 0) with 1; ring).
    unfold multiple_pairs, vx_ps. constructor; [split; apply M; discriminate|]. constructor; [split; apply M; discriminate|]. constructor; [split; apply M; discriminate|]. constructor.
  - destruct vx_pairs as (_ & _ & -> & _). apply Rle_trans with (two 9); [change (two 9) with 512; lra|apply bpow_le; cbn; discriminate]. Qed.
Print Assumptions C110_vecdot_exact_partial.

(** C110: the rayon device, for every schedule of its threads, if no two indices of an operand share a cell.  Missing: empty and broadcast operands. *)
Theorem C110_rayon_partial : forall t switch pool o (a b : tensor (float t)) axes r, tensor_ok a -> tensor_ok b -> size (t_shape a) <> 0%nat -> size (t_shape b) <> 0%nat -> injective (t_layout a) -> injective (t_layout b) -> fvecdot_rayon switch pool o a b axes r ->
  match r with
  | Ok c => tensor_ok c /\ injective (t_layout c) /\ exists pa pb, contractible o (t_shape a) (t_shape b) axes pa pb (t_shape c) /\ forall mx, valid (t_shape c) mx ->
      exists v ps, at_ c mx = Some v /\ paired o a b pa pb mx ps /\ (finite_pairs ps -> dot_no_overflow ps -> dots_to ps v)
  | Err _ => ~ exists pa pb s, contractible o (t_shape a) (t_shape b) axes pa pb s
  | Panic => False
  end.
Proof. exact l_fvecdot_rayon. Qed.
Lemma vx_runs {t} switch pool o (a b : tensor (float t)) axes : exists r, fvecdot_rayon switch pool o a b axes r.
Proof. unfold fvecdot_rayon, vecdot_on_rayon. destruct (vecdot_prepare o a b axes) as [[[[x y] lc] c]|e|]; [|eexists; reflexivity|eexists; reflexivity].
  assert (X : exists c', vecdot_rayon fzero fadd fmul switch pool o c lc (t_data a) (t_layout a) (t_data b) (t_layout b) x y c').
  { unfold vecdot_rayon. destruct (_ || _)%bool; [eexists; reflexivity|]. destruct (let* _ := _ in _) as [[tasks sum|tasks sp n]|e|]; [| |eexists; reflexivity|eexists; reflexivity]; eexists; (eexists; split; [apply Permutation.Permutation_refl|reflexivity]). }
  destruct X as [c' X]. eexists. exists c'. split; [exact X|reflexivity]. Qed.
Example C110_rayon_example : injective (t_layout vx_a) /\ injective (t_layout vx_b) /\ (exists r, fvecdot_rayon 1 true RowMajor vx_a vx_b PairNone r) /\ (Nat.max (l_size (t_layout vx_a)) (l_size (t_layout vx_b)) <? 1)%nat = false.
Proof. destruct vx_ok as (_ & _ & J1 & J2). split; [exact J1|]. split; [exact J2|]. split; [apply vx_runs|reflexivity]. Qed.
Print Assumptions C110_rayon_partial.

(** C110: the same written into an existing tensor without aliased elements: whatever it contained (NaN and infinities included) has no influence, and nothing else in its storage changes.  Missing: empty operands. *)
Theorem C110_from_partial : forall t o (c a b : tensor (float t)) axes, tensor_ok c -> tensor_ok a -> tensor_ok b -> size (t_shape a) <> 0%nat -> size (t_shape b) <> 0%nat -> injective (t_layout c) ->
  match fvecdot_from o c a b axes with
  | Ok c' => t_layout c' = t_layout c /\ untouched_outside (t_layout c) (t_data c) (t_data c') /\ exists pa pb, contractible o (t_shape a) (t_shape b) axes pa pb (t_shape c) /\ forall mx, valid (t_shape c) mx ->
      exists v ps, at_ c' mx = Some v /\ paired o a b pa pb mx ps /\ (finite_pairs ps -> dot_no_overflow ps -> dots_to ps v)
  | Err _ => ~ exists pa pb, contractible o (t_shape a) (t_shape b) axes pa pb (t_shape c)
  | Panic => False
  end.
Proof. exact l_fvecdot_from. Qed.
Definition vx_c : tensor (float F64) := mkTensor [of_int 7; of_int 7; of_int 7; of_int 7] (mkLayout [2]%nat [2]%Z 1).
Example C110_from_example : tensor_ok vx_c /\ injective (t_layout vx_c) /\ vx_all (fvecdot_from RowMajor vx_c vx_a vx_b PairNone) [7; 321; 7; 654]%Z = true.
Proof. split; [concrete_tensor|]. split; [apply not_broadcasted; [apply (good_new [2]%nat [2]%Z 1); [lia|vm_compute; reflexivity]|reflexivity]|vm_compute; reflexivity]. Qed.
Print Assumptions C110_from_partial.
