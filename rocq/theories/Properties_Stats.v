(** Property theorems about statistics (C75, C76).  Statements use Spec.v, Spec_Stats.v and the modelled entry points of M_Reduce.v and M_Stats.v only.
    [dev], [adev] are the kernels (serial, or rayon with its chunk sizes and schedules), [dflt] the default order of the build. *)
From Coq Require Import Ring_theory QArith Qcanon.
From Verif Require Import Base Spec Spec_Stats P_Index M_Layout M_Rearr M_Iter M_Kernel M_Tensor M_Reduce M_Stats P_Strides P_Tensor Q_Stats.
Local Open Scope Z_scope.

(** [[1; 5]; [3; 7]], column-major *)
Definition st_t : tensor Z := mkTensor [1; 3; 5; 7] (mkLayout [2; 2]%nat [1; 2] 0).
(** complex numbers as pairs of integers; division rounds *)
Definition c_add (x y : Z * Z) : Z * Z := (fst x + fst y, snd x + snd y).
Definition c_mul (x y : Z * Z) : Z * Z := (fst x * fst y - snd x * snd y, fst x * snd y + snd x * fst y).
Definition c_conj (x : Z * Z) : Z * Z := (fst x, - snd x).
Definition c_div (x : Z * Z) (n : nat) : Z * Z := (fst x / Z.of_nat n, snd x / Z.of_nat n).
Definition st_c : tensor (Z * Z) := mkTensor [(1, 2); (3, -2); (5, 4)] (mkLayout [3]%nat [1] 0).
Lemma st_names : names (ndim (t_layout st_t)) (AxVal (-1)) (Some [1]%nat).
Proof. repeat constructor; cbn; lia. Qed.
Lemma st_reducible : reducible st_t (Some [1]%nat).
Proof. right. split; [discriminate|]. intros [|[|k]] Hk; cbn in *; lia. Qed.
Lemma st_ok : tensor_ok st_t. Proof. concrete_tensor. Qed.
Definition qc_of (n : nat) : Qc := Q2Qc (inject_Z (Z.of_nat n)).
Lemma qc_multiple n x : multiple (Q2Qc 0) Qcplus n x = Qcmult (qc_of n) x.
Proof. unfold multiple, total. induction n as [|n IH]; cbn [repeat fold_right]; [change (qc_of 0) with (Q2Qc 0); ring|]. rewrite IH. replace (qc_of (S n)) with (Qcplus (Q2Qc 1) (qc_of n)); [ring|].
  unfold qc_of. apply Qc_is_canon. unfold Qcplus, Q2Qc, this. rewrite !Qred_correct. rewrite Nat2Z.inj_succ. unfold Z.succ. rewrite Z.add_comm, inject_Z_plus. reflexivity. Qed.
Lemma qc_nonzero n : n <> 0%nat -> qc_of n <> Q2Qc 0.
Proof. intros H E. unfold qc_of in E. apply (f_equal this) in E. cbn [this Q2Qc] in E. assert (X : (inject_Z (Z.of_nat n) == 0)%Q) by (rewrite <- (Qred_correct (inject_Z (Z.of_nat n))), E; reflexivity). unfold Qeq, inject_Z in X. cbn in X. lia. Qed.

(** C75: var, std and l2_norm of a tensor (real or complex) are the mean of the squared absolute values minus that of the mean, its root, and the root of the sum of the squared absolute values, on the serial kernel and on the parallel one with every chunk size and schedule. *)
Theorem C75_spread : forall (T R : Type) (zero : T) add mul conj (re : T -> R) div rzero radd rsub rdiv sqrt dev k (t : tensor T) xs, comm_monoid zero add -> comm_monoid rzero radd -> works dev -> tensor_ok t ->
  elements (t_data t) (t_layout t) (row_major (t_shape t)) xs ->
  cvar_all zero add mul conj re div rzero radd rsub rdiv dev k t = Ok (variance zero add mul conj re div rzero radd rsub rdiv xs) /\
  std_all zero add mul conj re div rzero radd rsub rdiv sqrt dev k t = Ok (sqrt (variance zero add mul conj re div rzero radd rsub rdiv xs)) /\
  l2_norm_all mul conj re rzero radd sqrt dev k t = Ok (sqrt (squares mul conj re rzero radd xs)).
Proof. exact l_spread_all. Qed.
Example C75_spread_example : cvar_all (0, 0) c_add c_mul c_conj fst c_div 0 Z.add Z.sub (fun x n => x / Z.of_nat n) AllSerial Fixed st_c = Ok 9 /\
  std_all (0, 0) c_add c_mul c_conj fst c_div 0 Z.add Z.sub (fun x n => x / Z.of_nat n) Z.sqrt (AllRayon 1 (Node 1 Leaf Leaf) (fun _ => Leaf)) Fixed st_c = Ok 3 /\
  l2_norm_all c_mul c_conj fst 0 Z.add Z.sqrt AllSerial Fixed st_c = Ok 7.
Proof. vm_compute. auto. Qed.
Print Assumptions C75_spread.

(** C75: var_axes, std_axes and l2_norm_axes table these statistics at every index of the remaining axes; given None they return one number for the whole tensor.  Missing: inputs that are empty or repeat an axis by broadcasting (see the refuted theorems of C32: the same kernel). *)
Theorem C75_spread_axes_partial : forall (T R : Type) (zero : T) add mul conj (re : T -> R) div rzero radd rsub rdiv sqrt dev adev dflt k (t : tensor T) axes ax, comm_monoid zero add -> comm_monoid rzero radd -> works dev -> tensor_ok t ->
  reducible t ax -> names (ndim (t_layout t)) axes ax ->
  (forall r, stat_axes_f (cvar_all zero add mul conj re div rzero radd rsub rdiv dev k t) (cvar_axes zero add mul conj re div rzero radd rsub rdiv adev dflt t) axes r ->
     exists t', r = Ok t' /\ tables t ax (variance zero add mul conj re div rzero radd rsub rdiv) t') /\
  (forall r, stat_axes_f (std_all zero add mul conj re div rzero radd rsub rdiv sqrt dev k t) (std_axes zero add mul conj re div rzero radd rsub rdiv sqrt adev dflt t) axes r ->
     exists t', r = Ok t' /\ tables t ax (fun xs => sqrt (variance zero add mul conj re div rzero radd rsub rdiv xs)) t') /\
  (forall r, stat_axes_f (l2_norm_all mul conj re rzero radd sqrt dev k t) (l2_norm_axes mul conj re rzero radd sqrt adev dflt t) axes r ->
     exists t', r = Ok t' /\ tables t ax (fun xs => sqrt (squares mul conj re rzero radd xs)) t').
Proof. exact l_spread_axes_partial. Qed.
Example C75_spread_axes_example : tensor_ok st_t /\ reducible st_t (Some [1]%nat) /\ names (ndim (t_layout st_t)) (AxVal (-1)) (Some [1]%nat) /\
  cvar_axes 0 Z.add Z.mul (fun x => x) (fun x => x) (fun x n => x / Z.of_nat n) 0 Z.add Z.sub (fun x n => x / Z.of_nat n) AxesSerial RowMajor st_t [-1] (Ok ([4; 4], mkLayout [2]%nat [1] 0)).
Proof. split; [apply st_ok|]. split; [apply st_reducible|]. split; [apply st_names|]. vm_compute. reflexivity. Qed.
Print Assumptions C75_spread_axes_partial.

(** C75: in exact arithmetic that variance is the mean square deviation: n times it is the sum of |x - mean|^2. *)
Theorem C75_variance_exact : forall (T R : Type) (zero : T) add mul sub opp conj (re : T -> R) div rzero rone radd rmul rsub ropp rdiv xs, exact zero add mul sub opp conj re div rzero rone radd rmul rsub ropp rdiv -> xs <> [] ->
  multiple rzero radd (length xs) (variance zero add mul conj re div rzero radd rsub rdiv xs) = squares mul conj re rzero radd (map (fun x => sub x (mean_of zero add div xs)) xs).
Proof. exact l_variance_exact. Qed.
Example C75_variance_exact_example : exact (Q2Qc 0) Qcplus Qcmult Qcminus Qcopp (fun x => x) (fun x => x) (fun x n => Qcdiv x (qc_of n)) (Q2Qc 0) (Q2Qc 1) Qcplus Qcmult Qcminus Qcopp (fun x n => Qcdiv x (qc_of n)).
Proof. constructor; intros; try ring; try reflexivity.
  - repeat split; intros; ring.
  - exact Qcrt.
  - rewrite qc_multiple. apply Qcmult_div_r. now apply qc_nonzero.
  - rewrite qc_multiple. apply Qcmult_div_r. now apply qc_nonzero. Qed.
Print Assumptions C75_variance_exact.

(** C76: min_axes (max_axes) gives at every remaining index one of the elements there that is not above (below) any other; an empty tensor is an error.  Missing: broadcast inputs. *)
Theorem C76_extrema_axes_partial : forall (T : Type) (worst : T) (mn : T -> T -> T) dev dflt (t : tensor T) axes, tensor_ok t -> comm_monoid worst mn -> (forall a b, mn a b = a \/ mn a b = b) ->
  (size (t_shape t) = 0%nat -> forall r, extremum_axes worst mn dev dflt t axes r -> r = Err InvalidValue) /\
  (forall ax r, size (t_shape t) <> 0%nat -> no_broadcast (t_layout t) -> Forall2 (axis_denotes (ndim (t_layout t))) axes ax -> NoDup ax -> extremum_axes worst mn dev dflt t axes r ->
     exists out lo, r = Ok (out, lo) /\ tensor_new out lo = Ok (mkTensor out lo) /\ l_shape lo = pick (axes_except (ndim (t_layout t)) ax) 0%nat (t_shape t) /\
     forall mx xs, valid (l_shape lo) mx -> elements (t_data t) (t_layout t) (group (t_shape t) ax mx) xs -> exists m, elem out lo mx = Some m /\ extremal mn xs m).
Proof. exact l_extremum_axes_partial. Qed.
Example C76_extrema_axes_example : comm_monoid 0%nat Nat.max /\ extremum_axes 0%nat Nat.max AxesSerial RowMajor (mkTensor [1; 3; 5; 7]%nat (mkLayout [2; 2]%nat [1; 2] 0)) [0] (Ok ([3; 7]%nat, mkLayout [2]%nat [1] 0)).
Proof. split; [repeat split; intros; lia|]. vm_compute. reflexivity. Qed.
Print Assumptions C76_extrema_axes_partial.

(** C76: all_axes and any_axes are the quantifiers over the elements at every remaining index.  Missing: empty and broadcast inputs. *)
Theorem C76_logic_axes_partial : forall dev dflt k (t : tensor bool) axes ax, tensor_ok t -> reducible t ax -> names (ndim (t_layout t)) axes ax ->
  (forall r, stat_axes_f (all_all k t) (all_axes dev dflt t) axes r -> exists t', r = Ok t' /\ tables t ax (forallb (fun x => x)) t') /\
  (forall r, stat_axes_f (any_all k t) (any_axes dev dflt t) axes r -> exists t', r = Ok t' /\ tables t ax (existsb (fun x => x)) t').
Proof. exact l_logic_axes_partial. Qed.
Example C76_logic_axes_example : all_axes AxesSerial RowMajor (mkTensor [true; false; true; true] (mkLayout [2; 2]%nat [1; 2] 0)) [0] (Ok ([false; true], mkLayout [2]%nat [1] 0)).
Proof. vm_compute. reflexivity. Qed.
Print Assumptions C76_logic_axes_partial.

(** C76: count_nonzero_axes counts the elements different from zero at every remaining index.  Missing: empty and broadcast inputs. *)
Theorem C76_count_axes_partial : forall (T : Type) (is_zero : T -> bool) dev dflt k (t : tensor T) axes ax, tensor_ok t -> reducible t ax -> names (ndim (t_layout t)) axes ax ->
  forall r, stat_axes_f (count_nonzero_all is_zero k t) (count_nonzero_axes is_zero dev dflt t) axes r -> exists t', r = Ok t' /\ tables t ax (fun xs => length (filter (fun x => negb (is_zero x)) xs)) t'.
Proof. exact l_count_axes_partial. Qed.
Example C76_count_axes_example : count_nonzero_axes (Z.eqb 0) AxesSerial RowMajor (mkTensor [1; 0; 5; 7] (mkLayout [2; 2]%nat [1; 2] 0)) [0] (Ok ([1; 2]%nat, mkLayout [2]%nat [1] 0)).
Proof. vm_compute. reflexivity. Qed.
Print Assumptions C76_count_axes_partial.

(** C76: the sum of a tensor of bool is the number of true elements, over everything or at every remaining index.  Missing: empty and broadcast inputs. *)
Theorem C76_bool_sum_partial : forall adev dev dflt k (t : tensor bool) axes ax, works adev -> tensor_ok t -> reducible t ax -> names (ndim (t_layout t)) axes ax ->
  forall r, stat_axes_f (bool_sum_all adev k t) (bool_sum_axes dev dflt t) axes r -> exists t', r = Ok t' /\ tables t ax (fun xs => count_occ bool_dec xs true) t'.
Proof. exact l_bool_sum_partial. Qed.
Example C76_bool_sum_example : bool_sum_all AllSerial Fixed (mkTensor [true; false; true; true] (mkLayout [2; 2]%nat [1; 2] 0)) = Ok 3%nat.
Proof. vm_compute. reflexivity. Qed.
Print Assumptions C76_bool_sum_partial.
