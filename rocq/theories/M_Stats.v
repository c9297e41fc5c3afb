(** Model of the rest of rstsr-core/src/device_cpu_serial/reduction.rs and rstsr-core/src/feature_rayon/auto_impl/reduction.rs: which closures the
    devices pass to the reduction kernels of M_Reduce.v.  The arithmetic of the element type [T] and of its real part [R] is a parameter. *)
From Verif Require Import Base Spec M_Layout M_Indexer M_Broadcast M_Rearr M_Iter M_Kernel M_Tensor M_Reduce.
Local Open Scope Z_scope.

(** The kernel a full reduction runs on: reduce_all_cpu_serial, or reduce_all_cpu_rayon with its chunk size and schedules *)
Inductive all_kernel := AllSerial | AllRayon (chunk : nat) (t : split_tree) (ti : Z -> split_tree).
(** rayon's chunks are not empty *)
Definition works (dev : all_kernel) : Prop := match dev with AllSerial => True | AllRayon chunk _ _ => chunk <> 0%nat end.
Definition run_all {T S O} (dev : all_kernel) (init : S) (f : S -> T -> S) (fsum : S -> S -> S) (fout : S -> O) (k : dimty) (t : tensor T) : res O :=
  match dev with
  | AllSerial => reduce_all init f fsum fout k (t_data t) (t_layout t)
  | AllRayon chunk tr ti => reduce_all_rayon init f fsum fout chunk tr ti k (t_data t) (t_layout t)
  end.
(** The kernel a reduction over axes runs on: reduce_axes_cpu_serial, or reduce_axes_cpu_rayon with its threshold and schedules; [r] is a possible result.
    The default iteration order of the build is K (rstsr-common/src/flags.rs) *)
Inductive axes_kernel := AxesSerial | AxesRayon (switch : nat) (tr : Z -> split_tree).
Definition run_axes {T S O} (dev : axes_kernel) (dflt : order) (init : S) (f : S -> T -> S) (fsum : S -> S -> S) (fout : S -> O) (t : tensor T) (axes : list Z)
  (r : res (list O * layout)) : Prop :=
  match dev with
  | AxesSerial => r = reduce_axes init f fsum fout dflt OK (t_data t) (t_layout t) axes
  | AxesRayon switch tr => reduce_axes_rayon init f fsum fout switch tr dflt OK (t_data t) (t_layout t) axes r
  end.
(** the function of the tensor, rstsr-core/src/tensor/reduction.rs:14-36, with the device's functions as relations *)
Definition stat_axes_f {O} (all : res O) (some : list Z -> res (list O * layout) -> Prop) (axes : axes_index) (r : res (tensor O)) : Prop :=
  match axes with
  | AxNone => r = (let* s := all in let* l := layout_new [] [] 0 in tensor_new [s] l)
  | _ => exists q, some (axes_list axes) q /\ r = (let* p := q in tensor_new (fst p) (snd p))
  end.

(** ** Spread and norm of real or complex elements *)
Section Spread.
  Context {T R : Type} (zero : T) (add mul : T -> T -> T) (conj : T -> T) (re : T -> R) (div : T -> nat -> T).
  Context (rzero : R) (radd rsub : R -> R -> R) (rdiv : R -> nat -> R) (sqrt : R -> R).
  (** [(x * x.conj()).re()] *)
  Definition abs2 (x : T) : R := re (mul x (conj x)).
  (** f and f_sum of var and std, device_cpu_serial/reduction.rs:198-199, 221-222, 248-249, 272-273; auto_impl/reduction.rs:221-222, 246-247, 275-276, 301-302 *)
  Definition var_f (acc : T * R) (x : T) : T * R := (add (fst acc) x, radd (snd acc) (abs2 x)).
  Definition var_sum (a b : T * R) : T * R := (add (fst a) (fst b), radd (snd a) (snd b)).
  (** f_out of var, device_cpu_serial/reduction.rs:200-205, 223-228 *)
  Definition var_out (n : nat) (acc : T * R) : R := let mean := div (fst acc) n in rsub (rdiv (snd acc) n) (abs2 mean).
  (** f_out of std, device_cpu_serial/reduction.rs:250-256, 274-280 *)
  Definition std_out (n : nat) (acc : T * R) : R := let mean := div (fst acc) n in let var := rsub (rdiv (snd acc) n) (abs2 mean) in sqrt var.
  (** var_all and std_all, device_cpu_serial/reduction.rs:194-209, 244-260; auto_impl/reduction.rs:217-232, 271-287 *)
  Definition cvar_all (dev : all_kernel) (k : dimty) (t : tensor T) : res R := run_all dev (zero, rzero) var_f var_sum (var_out (l_size (t_layout t))) k t.
  Definition std_all (dev : all_kernel) (k : dimty) (t : tensor T) : res R := run_all dev (zero, rzero) var_f var_sum (std_out (l_size (t_layout t))) k t.
  (** var_axes and std_axes, device_cpu_serial/reduction.rs:211-236, 262-287; auto_impl/reduction.rs:234-258, 289-314 *)
  Definition cvar_axes (dev : axes_kernel) (dflt : order) (t : tensor T) (axes : list Z) (r : res (list R * layout)) : Prop :=
    match dim_split_axes (t_layout t) axes with
    | Ok p => run_axes dev dflt (zero, rzero) var_f var_sum (var_out (l_size (fst p))) t axes r
    | Err e => r = Err e
    | Panic => r = Panic
    end.
  Definition std_axes (dev : axes_kernel) (dflt : order) (t : tensor T) (axes : list Z) (r : res (list R * layout)) : Prop :=
    match dim_split_axes (t_layout t) axes with
    | Ok p => run_axes dev dflt (zero, rzero) var_f var_sum (std_out (l_size (fst p))) t axes r
    | Err e => r = Err e
    | Panic => r = Panic
    end.
  (** l2_norm_all and l2_norm_axes, device_cpu_serial/reduction.rs:296-321; auto_impl/reduction.rs:325-353 *)
  Definition l2_norm_all (dev : all_kernel) (k : dimty) (t : tensor T) : res R := run_all dev rzero (fun acc x => radd acc (abs2 x)) radd sqrt k t.
  Definition l2_norm_axes (dev : axes_kernel) (dflt : order) (t : tensor T) (axes : list Z) (r : res (list R * layout)) : Prop :=
    run_axes dev dflt rzero (fun acc x => radd acc (abs2 x)) radd sqrt t axes r.
End Spread.

(** ** Extrema, logic and counts over axes *)
(** min_axes and max_axes, device_cpu_serial/reduction.rs:58-75, 98-115; auto_impl/reduction.rs:65-84, 109-128 *)
Definition extremum_axes {T} (worst : T) (mn : T -> T -> T) (dev : axes_kernel) (dflt : order) (t : tensor T) (axes : list Z) (r : res (list T * layout)) : Prop :=
  if (l_size (t_layout t) =? 0)%nat then r = Err InvalidValue else run_axes dev dflt worst mn mn (fun x => x) t axes r.
(** all_axes and any_axes, device_cpu_serial/reduction.rs:440-453, 471-484; auto_impl/reduction.rs:483-498, 518-533 *)
Definition all_axes (dev : axes_kernel) (dflt : order) (t : tensor bool) (axes : list Z) (r : res (list bool * layout)) : Prop :=
  run_axes dev dflt true andb andb (fun x => x) t axes r.
Definition any_axes (dev : axes_kernel) (dflt : order) (t : tensor bool) (axes : list Z) (r : res (list bool * layout)) : Prop :=
  run_axes dev dflt false orb orb (fun x => x) t axes r.
(** count_nonzero_axes, device_cpu_serial/reduction.rs:503-516; auto_impl/reduction.rs:554-569 *)
Definition count_nonzero_axes {T} (is_zero : T -> bool) (dev : axes_kernel) (dflt : order) (t : tensor T) (axes : list Z) (r : res (list nat * layout)) : Prop :=
  run_axes dev dflt 0%nat (fun acc x => if negb (is_zero x) then (acc + 1)%nat else acc) Nat.add (fun x => x) t axes r.
(** sum_all and sum_axes of a tensor of bool, device_cpu_serial/reduction.rs:621-649; auto_impl/reduction.rs:682-714 *)
Definition bool_sum_all (dev : all_kernel) (k : dimty) (t : tensor bool) : res nat := run_all dev 0%nat (fun (acc : nat) (x : bool) => if x then (acc + 1)%nat else acc) Nat.add (fun x => x) k t.
Definition bool_sum_axes (dev : axes_kernel) (dflt : order) (t : tensor bool) (axes : list Z) (r : res (list nat * layout)) : Prop :=
  run_axes dev dflt 0%nat (fun (acc : nat) (x : bool) => if x then (acc + 1)%nat else acc) Nat.add (fun x => x) t axes r.
