(** Model of the devices and of moving tensors between them: rstsr-core/src/feature_rayon/device.rs, device_cpu_serial/{device,conversion}.rs,
    device_faer/{device,conversion}.rs, tensor/device_conversion.rs, the device checks of tensor/operators/op_with_func.rs and tensor/assignment.rs,
    crates-device/rstsr-{openblas,mkl,blis,aocl,kml}/src/{device,conversion,threading}.rs and rstsr-blas-traits/src/threading.rs.
    [device] (the number of threads and the default order that a device reports) and [placed] (a tensor and its device) are those of M_Faer.v. *)
From Verif Require Import Base Spec M_Layout M_Indexer M_Broadcast M_Reshape M_Rearr M_Iter M_Kernel M_Tensor M_Faer.
Local Open Scope nat_scope.

(** ** the device that owns a thread pool *)
(** struct DeviceCpuRayon, feature_rayon/device.rs:40-45.  A pool is the number of its threads (rayon's own upper limit on that number is not
    modelled); cloning the device shares the pool, and no operation changes a pool. *)
Record rayon_device := mkRayon { r_asked : nat; r_pool : nat; r_order : order }.
(** generate_pool, feature_rayon/device.rs:71-74.  [here]: rayon::current_num_threads() where the call is made *)
Definition generate_pool (here n : nat) : nat := let actual := if n =? 0 then here else n in actual.
(** DeviceCpuRayon::new, feature_rayon/device.rs:48-51; DeviceFaer::new and DeviceBLAS::new wrap it.  [dflt]: FlagOrder::default() *)
Definition rayon_new (dflt : order) (here n : nat) : rayon_device := mkRayon n (generate_pool here n) dflt.
(** set_num_threads, feature_rayon/device.rs:99-106 *)
Definition set_num_threads (here n : nat) (d : rayon_device) : rayon_device :=
  if negb (r_asked d =? n) then mkRayon n (generate_pool here n) (r_order d) else d.
(** get_num_threads, feature_rayon/device.rs:109-114 *)
Definition get_num_threads (d : rayon_device) : nat := match r_asked d with O => r_pool d | n => n end.
(** get_current_pool, feature_rayon/device.rs:122-127: the size of the pool, or nothing on a worker thread of rayon *)
Definition get_current_pool (worker : bool) (d : rayon_device) : option nat := if worker then None else Some (r_pool d).
(** set_default_order, feature_rayon/device.rs:93-95 *)
Definition set_default_order (o : order) (d : rayon_device) : rayon_device := mkRayon (r_asked d) (r_pool d) o.
(** same_device of DeviceFaer (device_faer/device.rs:47-51) and of DeviceBLAS (crates-device/rstsr-openblas/src/device.rs:40-44) *)
Definition same_pooled (d e : rayon_device) : bool := (get_num_threads d =? get_num_threads e) && order_eqb (r_order d) (r_order e).
(** same_device of DeviceCpuRayon, feature_rayon/device.rs:85-87, and of DeviceCpuSerial, device_cpu_serial/device.rs:11-13 *)
Definition same_ordered (d e : order) : bool := order_eqb d e.
(** the number of threads given to a library, e.g. rstsr-linalg-traits/src/ref_impl_blas.rs:18: get_current_pool().map_or(1, current_num_threads) *)
Definition library_threads (worker : bool) (d : rayon_device) : nat := match get_current_pool worker d with Some n => n | None => 1 end.

(** ** moving a tensor to another device *)
(** change_device, device_faer/conversion.rs:136-142, device_cpu_serial/conversion.rs:12-21, crates-device/rstsr-openblas/src/conversion.rs:15-24 *)
Definition change_device {T} (t : placed T) (dev : device) : res (placed T) :=
  let* t' := unwrap (tensor_new (t_data (p_tensor t)) (t_layout (p_tensor t))) in Ok (mkPlaced t' dev).
(** into_device, device_faer/conversion.rs:144-150 *)
Definition into_device {T} (k : dimty) (t : placed T) (dev : device) : res (placed T) :=
  let* o := into_owned k (d_order (p_device t)) (p_tensor t) in
  change_device (mkPlaced o (p_device t)) dev.
(** to_device, device_faer/conversion.rs:152-155: the view of a tensor has the same storage and layout *)
Definition to_device {T} (t : placed T) (dev : device) : res (placed T) := change_device t dev.

(** ** operations on tensors of one device type *)
(** same_device of the serial device, which compares the order only, and of the devices with a pool *)
Definition same_of (serial : bool) (d e : device) : bool := if serial then same_ordered (d_order d) (d_order e) else same_device d e.
(** op_refa_refb_func, op_with_func.rs:45-82 (also the [&a op &b] operators, op_binary_arithmetic.rs:188-210): the check of line 64, then the
    operation in the order of a's device; the result's storage is created by a's device *)
Definition binary_on {A B C} (serial : bool) (k : dimty) (g : A -> B -> C) (a : placed A) (b : placed B) : res (placed C) :=
  let* _ := check (same_of serial (p_device a) (p_device b)) DeviceMismatch in
  let* c := op_refa_refb_func k (d_order (p_device a)) g (p_tensor a) (p_tensor b) in
  Ok (mkPlaced c (p_device a)).
(** op_mutc_refa_refb_func, op_with_func.rs:6-43, with lines 25-26 *)
Definition binary_into_on {A B C} (serial : bool) (k : dimty) (g : C -> A -> B -> C) (c : placed C) (a : placed A) (b : placed B) : res (placed C) :=
  let* _ := check (same_of serial (p_device c) (p_device a)) DeviceMismatch in
  let* _ := check (same_of serial (p_device c) (p_device b)) DeviceMismatch in
  let* c' := op_mutc_refa_refb_func k (d_order (p_device c)) g (p_tensor c) (p_tensor a) (p_tensor b) in
  Ok (mkPlaced c' (p_device c)).
(** op_muta_refb_func, op_with_func.rs:84-117, with line 102; the assigning operators (op_binary_assign.rs:116-142) are this function *)
Definition assign_on {A B} (serial : bool) (k : dimty) (g : A -> B -> A) (a : placed A) (b : placed B) : res (placed A) :=
  let* _ := check (same_of serial (p_device a) (p_device b)) DeviceMismatch in
  let* a' := op_muta_refb_func k (d_order (p_device a)) g (p_tensor a) (p_tensor b) in
  Ok (mkPlaced a' (p_device a)).

(** ** the number of threads of a linear algebra library *)
(** What a thread does with the library: it ends, panics, calls the library, or runs [body] inside with_num_threads(n, ..). *)
Inductive work := Stop | Abort | Use (k : work) | With (n : nat) (body k : work).
(** The threading.rs of a device crate: how it reads and sets the number of threads of the library's state. *)
Record library (S : Type) := mkLibrary { lib_get : S -> nat; lib_set : nat -> S -> S }.
Arguments mkLibrary {S}. Arguments lib_get {S}. Arguments lib_set {S}.
(** OpenBLAS built with threads or with OpenMP, rstsr-openblas/src/threading.rs:56-76; BLIS and AOCL, rstsr-{blis,aocl}/src/threading.rs *)
Definition counting_library : library nat := mkLibrary (fun s => s) (fun n _ => n).
(** OpenBLAS built without threads: setting does nothing, the number is 1 *)
Definition sequential_library : library unit := mkLibrary (fun _ => 1) (fun _ s => s).
(** MKL, rstsr-mkl/src/threading.rs: MKL_Get_Max_Threads and MKL_Set_Num_Threads_Local.  The state is the process-wide number and the number of
    this thread, if it has one of its own; setting 0 removes it *)
Definition mkl_library : library (nat * option nat) :=
  mkLibrary (fun s => match snd s with Some n => n | None => fst s end) (fun n s => (fst s, if n =? 0 then None else Some n)).
(** KML, rstsr-kml/src/threading.rs: the number of its BLAS (process-wide, or this thread's inside rayon) and that of its service library; only
    the first is read *)
Definition kml_library : library (nat * nat) := mkLibrary fst (fun n _ => (n, n)).
(** with_num_threads, e.g. rstsr-openblas/src/threading.rs:112-121, and the work around it.  Returns the numbers of threads seen by the calls of the
    library, the state afterwards, and false after a panic (the last line of with_num_threads is then not run) *)
Fixpoint eval {S} (lib : library S) (w : work) (s : S) : list nat * S * bool :=
  match w with
  | Stop => ([], s, true)
  | Abort => ([], s, false)
  | Use k => let '(seen, s', ok) := eval lib k s in (lib_get lib s :: seen, s', ok)
  | With n body k =>
    let saved := lib_get lib s in
    let s1 := lib_set lib n s in
    let '(seen, s2, ok) := eval lib body s1 in
    if ok then
      let s3 := lib_set lib saved s2 in
      let '(seen', s4, ok') := eval lib k s3 in (seen ++ seen', s4, ok')
    else (seen, s2, false)
  end.

(** The same on several threads at once: each get and each set is one step (the mutex of rstsr-openblas/src/threading.rs:96 is held for one of them
    at a time only, that of the other crates does not exist).  [Read] keeps the number in a local variable, [Restore] sets it again. *)
Inductive instr := IRead | IWrite (n : nat) | IUse | IRestore.
Fixpoint compile (w : work) : list instr :=
  match w with
  | Stop | Abort => []
  | Use k => IUse :: compile k
  | With n body k => IRead :: IWrite n :: compile body ++ IRestore :: compile k
  end.
(** the code that is left, the local variables n of the open with_num_threads, innermost first, and the numbers seen so far *)
Record thread := mkThread { th_code : list instr; th_saved : list nat; th_seen : list nat }.
(** [loc i]: where the library keeps the number of thread i (the same place for every thread if it is process-wide); [cells]: the numbers *)
Record machine := mkMachine { m_cells : nat -> nat; m_threads : list thread }.
Definition set_cell (c : nat -> nat) (p n : nat) : nat -> nat := fun q => if q =? p then n else c q.
Definition step (loc : nat -> nat) (m : machine) (i : nat) : machine :=
  match nth_error (m_threads m) i with
  | None => m
  | Some t =>
    let put t' := firstn i (m_threads m) ++ t' :: skipn (S i) (m_threads m) in
    match th_code t, th_saved t with
    | IRead :: code, sv => mkMachine (m_cells m) (put (mkThread code (m_cells m (loc i) :: sv) (th_seen t)))
    | IWrite n :: code, sv => mkMachine (set_cell (m_cells m) (loc i) n) (put (mkThread code sv (th_seen t)))
    | IUse :: code, sv => mkMachine (m_cells m) (put (mkThread code sv (th_seen t ++ [m_cells m (loc i)])))
    | IRestore :: code, n :: sv => mkMachine (set_cell (m_cells m) (loc i) n) (put (mkThread code sv (th_seen t)))
    | IRestore :: _, [] => m
    | [], _ => m
    end
  end.
(** the threads run in the order of [schedule], one step at a time *)
Definition run (loc : nat -> nat) (m : machine) (schedule : list nat) : machine := fold_left (step loc) schedule m.
Definition start (cells : nat -> nat) (ws : list work) : machine := mkMachine cells (map (fun w => mkThread (compile w) [] []) ws).
