(** Property theorems about devices, moving tensors between them and the numbers of threads of the linear algebra libraries (C96-C99).  Statements use
    Spec.v, Spec_Device.v and the modelled entry points of M_Device.v, M_Manip.v and M_Tensor.v only. *)
From Verif Require Import Base Spec Spec_Device M_Layout M_Indexer M_Broadcast M_Reshape M_Rearr M_Iter M_Kernel M_Tensor M_Manip M_Faer M_Device P_Index P_Strides P_Tensor Q_Device.
Local Open Scope nat_scope.

(** C96: after every history of settings the device reports exactly the number of threads of the pool it works with (outside of rayon's own threads). *)
Theorem C96_pool : forall dflt here n h, let d := configured dflt here n h in get_current_pool false d = Some (get_num_threads d).
Proof. exact l_pool. Qed.
Example C96_example : let h := [SetThreads 6 3; SetOrder ColMajor; SetThreads 6 0; SetThreads 5 2; SetThreads 5 0] in
  steady (requests 4 0 h) /\ get_num_threads (configured RowMajor 4 0 h) = 5 /\ r_order (configured RowMajor 4 0 h) = ColMajor /\ get_num_threads (configured RowMajor 4 0 (firstn 4 h)) = 2.
Proof. split; [|split; [reflexivity|split; reflexivity]]. intros i h h'. do 6 (destruct i as [|i]; [cbn; intros; congruence|]). cbn. destruct i; discriminate. Qed.
Print Assumptions C96_pool.

(** C96: a library called from outside of rayon gets the number of threads the device reports, one called from a worker thread of rayon gets 1. *)
Theorem C96_library : forall dflt here n h, let d := configured dflt here n h in library_threads false d = get_num_threads d /\ library_threads true d = 1.
Proof. exact l_library. Qed.
Print Assumptions C96_library.

(** C96: the default order is the last one set, else the one at creation. *)
Theorem C96_order : forall dflt here n h, r_order (configured dflt here n h) = last_order dflt h.
Proof. exact l_order. Qed.
Print Assumptions C96_order.

(** C96: the number of threads is what the last request asks for, where 0 asks for the number of threads at the place of the request; proved when consecutive requests of 0 come from places with equally many threads. *)
Theorem C96_threads_partial : forall dflt here n h, steady (requests here n h) ->
  exists r, nth_error (requests here n h) (length (requests here n h) - 1) = Some r /\ get_num_threads (configured dflt here n h) = asks_for r.
Proof. exact l_threads_partial. Qed.
Print Assumptions C96_threads_partial.

(** C96: without that condition this fails: a request of 0 after a request of 0 is ignored, even if it comes from a place with another number of threads. *)
Theorem C96_threads_refuted : exists dflt here n h here', h = [SetThreads here' 0] /\ get_num_threads (configured dflt here n h) <> here' /\ get_num_threads (configured dflt here n h) <> asks_for (here', 0).
Proof. exact l_threads_refuted. Qed.
Print Assumptions C96_threads_refuted.

(** C96: two devices with pools are the same device exactly if they report the same number of threads and the same order (they need not share a pool). *)
Theorem C96_same_pooled : forall d e, same_pooled d e = true <-> get_num_threads d = get_num_threads e /\ r_order d = r_order e.
Proof. exact l_same_pooled. Qed.
Print Assumptions C96_same_pooled.

(** C96: being the same device is an equivalence relation, for serial devices and for devices with pools. *)
Theorem C96_same_equivalence : forall serial d e f, same_of serial d d = true /\ same_of serial d e = same_of serial e d /\ (same_of serial d e = true -> same_of serial e f = true -> same_of serial d f = true).
Proof. exact l_same_equivalence. Qed.
Print Assumptions C96_same_equivalence.

(** C97: change_device and to_device give the same tensor, that is the same storage and layout, on the requested device.  Missing: empty tensors whose offset lies beyond their storage. *)
Theorem C97_move_partial : forall (T : Type) (t : placed T) dev, tensor_ok (p_tensor t) -> size (t_shape (p_tensor t)) <> 0 \/ (0 <= l_offset (t_layout (p_tensor t)) <= Z.of_nat (length (t_data (p_tensor t))))%Z ->
  change_device t dev = Ok (mkPlaced (p_tensor t) dev) /\ to_device t dev = Ok (mkPlaced (p_tensor t) dev).
Proof. exact l_change_device_partial. Qed.
Definition dx_t : placed Z := mkPlaced (mkTensor [1; 2; 3; 4; 5; 6; 7]%Z (mkLayout [2; 3] [-1; 2]%Z 2%Z)) (mkDevice 4 RowMajor).
Example C97_example : tensor_ok (p_tensor dx_t) /\ to_device dx_t (mkDevice 1 ColMajor) = Ok (mkPlaced (p_tensor dx_t) (mkDevice 1 ColMajor)) /\
  exists c, into_device Dyn dx_t (mkDevice 1 ColMajor) = Ok (mkPlaced c (mkDevice 1 ColMajor)) /\ at_ c [1; 2] = Some 6%Z /\ at_ (p_tensor dx_t) [1; 2] = Some 6%Z /\ length (t_data c) = 6.
Proof. split; [unfold dx_t; cbn [p_tensor]; concrete_tensor|]. split; [reflexivity|]. eexists. split; [vm_compute; reflexivity|]. split; [reflexivity|]. split; reflexivity. Qed.
Print Assumptions C97_move_partial.

(** C97: in particular every non-empty result of a chain of view operations moves unchanged. *)
Theorem C97_move_views_partial : forall (T : Type) o ops (t : placed T) v dev, tensor_ok (p_tensor t) -> views o ops (p_tensor t) = Ok v -> size (t_shape v) <> 0 ->
  to_device (mkPlaced v (p_device t)) dev = Ok (mkPlaced v dev).
Proof. exact l_to_device_views_partial. Qed.
Print Assumptions C97_move_views_partial.

(** C97: an empty view may end the program: a 0 by 4 tensor with its second axis reversed has offset 3 in a storage of 0 elements, and moving it checks the offset against the length. *)
Theorem C97_move_empty_refuted : exists (t v : tensor Z) d dev, tensor_ok t /\ view RowMajor (VFlip (AxVal 1)) t = Ok v /\ tensor_ok v /\ t_shape v = [0; 4] /\ to_device (mkPlaced v d) dev = Panic.
Proof. exact l_to_device_empty_refuted. Qed.
Print Assumptions C97_move_empty_refuted.

(** C97: into_device of any valid tensor, empty or not, gives an owned tensor on the requested device with the same shape and elements and nothing else in its storage. *)
Theorem C97_into_device : forall (T : Type) k (t : placed T) dev, tensor_ok (p_tensor t) ->
  exists c, into_device k t dev = Ok (mkPlaced c dev) /\ tensor_ok c /\ t_shape c = t_shape (p_tensor t) /\ (forall ix, valid (t_shape c) ix -> at_ c ix = at_ (p_tensor t) ix) /\ length (t_data c) = size (t_shape c).
Proof. exact l_into_device. Qed.
Print Assumptions C97_into_device.

(** C97: moving to another device and back gives the same shape and elements on the original device. *)
Theorem C97_round_trip : forall (T : Type) k (t : placed T) dev, tensor_ok (p_tensor t) ->
  exists c c', into_device k t dev = Ok (mkPlaced c dev) /\ into_device k (mkPlaced c dev) (p_device t) = Ok (mkPlaced c' (p_device t)) /\ t_shape c' = t_shape (p_tensor t) /\ forall ix, valid (t_shape c') ix -> at_ c' ix = at_ (p_tensor t) ix.
Proof. exact l_device_round_trip. Qed.
Print Assumptions C97_round_trip.

(** C98: a binary operation on tensors of compatible devices gives the broadcast elementwise result on the device of the first operand, and fails only if the shapes do not broadcast in that device's order; operands of incompatible devices are refused with DeviceMismatch. *)
Theorem C98_binary : forall (A B C : Type) serial k (g : A -> B -> C) (a : placed A) (b : placed B), tensor_ok (p_tensor a) -> tensor_ok (p_tensor b) ->
  let o := d_order (p_device a) in let sa := t_shape (p_tensor a) in let sb := t_shape (p_tensor b) in
  (compatible serial (p_device a) (p_device b) ->
   match binary_on serial k g a b with
   | Ok c => p_device c = p_device a /\ tensor_ok (p_tensor c) /\ broadcasts o sa sb (t_shape (p_tensor c)) /\
       forall ix, valid (t_shape (p_tensor c)) ix -> exists x y, at_ (p_tensor a) (source_index o sa ix) = Some x /\ at_ (p_tensor b) (source_index o sb ix) = Some y /\ at_ (p_tensor c) ix = Some (g x y)
   | Err _ => forall s, ~ broadcasts o sa sb s
   | Panic => False
   end) /\
  (~ compatible serial (p_device a) (p_device b) -> binary_on serial k g a b = Err DeviceMismatch).
Proof. exact l_binary_devices. Qed.
Example C98_example : let b d := mkPlaced (mkTensor [10; 20; 30]%Z (mkLayout [3] [1]%Z 0%Z)) d in
  tensor_ok (p_tensor (b (mkDevice 4 RowMajor))) /\ binary_on false Fixed Z.sub dx_t (b (mkDevice 4 RowMajor)) = Ok (mkPlaced (mkTensor [-7; -15; -23; -8; -16; -24]%Z (mkLayout [2; 3] [3; 1]%Z 0%Z)) (mkDevice 4 RowMajor)) /\
  binary_on false Fixed Z.sub dx_t (b (mkDevice 2 RowMajor)) = Err DeviceMismatch /\ binary_on true Fixed Z.sub dx_t (b (mkDevice 2 RowMajor)) <> Err DeviceMismatch /\ binary_on true Fixed Z.sub dx_t (b (mkDevice 4 ColMajor)) = Err DeviceMismatch.
Proof. split; [cbn [p_tensor]; concrete_tensor|]. split; [reflexivity|]. split; [reflexivity|]. split; [vm_compute; discriminate|reflexivity]. Qed.
Print Assumptions C98_binary.

(** C98: the same with an output view, which stays on its device; nothing outside the view is changed, and nothing at all when the devices are incompatible. *)
Theorem C98_binary_into : forall (A B C : Type) serial k (g : C -> A -> B -> C) (c : placed C) (a : placed A) (b : placed B), tensor_ok (p_tensor c) -> tensor_ok (p_tensor a) -> tensor_ok (p_tensor b) -> injective (t_layout (p_tensor c)) ->
  let o := d_order (p_device c) in let sa := t_shape (p_tensor a) in let sb := t_shape (p_tensor b) in let sc := t_shape (p_tensor c) in
  (compatible serial (p_device c) (p_device a) -> compatible serial (p_device c) (p_device b) ->
   match binary_into_on serial k g c a b with
   | Ok c' => p_device c' = p_device c /\ broadcasts o sc sa sc /\ broadcasts o sc sb sc /\ t_layout (p_tensor c') = t_layout (p_tensor c) /\ untouched_outside (t_layout (p_tensor c)) (t_data (p_tensor c)) (t_data (p_tensor c')) /\
       forall ix, valid sc ix -> exists x y z, at_ (p_tensor c) ix = Some x /\ at_ (p_tensor a) (source_index o sa ix) = Some y /\ at_ (p_tensor b) (source_index o sb ix) = Some z /\ at_ (p_tensor c') ix = Some (g x y z)
   | Err _ => ~ (broadcasts o sc sa sc /\ broadcasts o sc sb sc)
   | Panic => False
   end) /\
  (~ (compatible serial (p_device c) (p_device a) /\ compatible serial (p_device c) (p_device b)) -> binary_into_on serial k g c a b = Err DeviceMismatch).
Proof. exact l_binary_into_devices. Qed.
Print Assumptions C98_binary_into.

(** C98: the same for operations that update their first operand in place. *)
Theorem C98_assign : forall (A B : Type) serial k (g : A -> B -> A) (a : placed A) (b : placed B), tensor_ok (p_tensor a) -> tensor_ok (p_tensor b) -> injective (t_layout (p_tensor a)) ->
  let o := d_order (p_device a) in let sa := t_shape (p_tensor a) in let sb := t_shape (p_tensor b) in
  (compatible serial (p_device a) (p_device b) ->
   match assign_on serial k g a b with
   | Ok a' => p_device a' = p_device a /\ broadcasts o sa sb sa /\ t_layout (p_tensor a') = t_layout (p_tensor a) /\ untouched_outside (t_layout (p_tensor a)) (t_data (p_tensor a)) (t_data (p_tensor a')) /\
       forall ix, valid sa ix -> exists x y, at_ (p_tensor a) ix = Some x /\ at_ (p_tensor b) (source_index o sb ix) = Some y /\ at_ (p_tensor a') ix = Some (g x y)
   | Err _ => ~ broadcasts o sa sb sa
   | Panic => False
   end) /\
  (~ compatible serial (p_device a) (p_device b) -> assign_on serial k g a b = Err DeviceMismatch).
Proof. exact l_assign_devices. Qed.
Print Assumptions C98_assign.

(** C98: moving the second operand to the device of the first always makes the operation possible: it gives the elementwise result of the original operands. *)
Theorem C98_move_then_operate : forall (A B C : Type) serial k (g : A -> B -> C) (a : placed A) (b : placed B), tensor_ok (p_tensor a) -> tensor_ok (p_tensor b) ->
  let o := d_order (p_device a) in let sa := t_shape (p_tensor a) in let sb := t_shape (p_tensor b) in
  exists b', into_device k b (p_device a) = Ok b' /\
  match binary_on serial k g a b' with
  | Ok c => p_device c = p_device a /\ broadcasts o sa sb (t_shape (p_tensor c)) /\
      forall ix, valid (t_shape (p_tensor c)) ix -> exists x y, at_ (p_tensor a) (source_index o sa ix) = Some x /\ at_ (p_tensor b) (source_index o sb ix) = Some y /\ at_ (p_tensor c) ix = Some (g x y)
  | Err _ => forall s, ~ broadcasts o sa sb s
  | Panic => False
  end.
Proof. exact l_move_operate. Qed.
Print Assumptions C98_move_then_operate.

(** C99: on one thread, for any nesting of with_num_threads, every library call sees the number of the innermost with_num_threads around it, and the number reported afterwards is the one from before. *)
Theorem C99_scoped : forall (S : Type) (lib : library S) w s, obeys lib -> proper w -> 0 < lib_get lib s ->
  exists s', eval lib w s = (scoped (lib_get lib s) w, s', true) /\ lib_get lib s' = lib_get lib s.
Proof. exact l_scoped. Qed.
Example C99_example : let w := With 4 (Use (With 1 (Use (Use Stop)) (Use Stop))) (Use (With 2 (Use Stop) Stop)) in
  proper w /\ obeys mkl_library /\ eval mkl_library w (8, None) = ([4; 1; 1; 4; 8; 2], (8, Some 8), true) /\ scoped 8 w = [4; 1; 1; 4; 8; 2].
Proof. split; [repeat constructor|]. split; [apply l_libraries_obey|]. split; reflexivity. Qed.
Print Assumptions C99_scoped.

(** C99: this applies to OpenBLAS with threads or OpenMP, BLIS, AOCL, MKL and KML, and not to OpenBLAS without threads. *)
Theorem C99_libraries : obeys counting_library /\ obeys mkl_library /\ obeys kml_library /\ ~ obeys sequential_library.
Proof. exact l_libraries_obey. Qed.
Print Assumptions C99_libraries.

(** C99: OpenBLAS without threads always uses one thread. *)
Theorem C99_sequential : forall w s, proper w -> exists seen, eval sequential_library w s = (seen, s, true) /\ Forall (eq 1) seen.
Proof. exact l_sequential. Qed.
Print Assumptions C99_sequential.

(** C99: when the work inside with_num_threads panics the number of threads is not restored. *)
Theorem C99_panic_refuted : exists w s seen s', eval counting_library w s = (seen, s', false) /\ w = With 1 Abort Stop /\ s' <> s.
Proof. exact l_panic_refuted. Qed.
Print Assumptions C99_panic_refuted.

(** C99: with MKL the thread is left with a number of its own after with_num_threads: a later change of the process-wide number has no effect on it, as it had before. *)
Theorem C99_mkl_pinned_refuted : exists w n m seen s', proper w /\ 0 < n /\ 0 < m /\ eval mkl_library w (n, None) = (seen, s', true) /\ lib_get mkl_library s' = n /\ lib_get mkl_library (m, None) = m /\ lib_get mkl_library (m, snd s') <> m.
Proof. exact l_mkl_pinned_refuted. Qed.
Print Assumptions C99_mkl_pinned_refuted.

(** C99: with KML the number of its service library is not restored but set to the number of its BLAS. *)
Theorem C99_kml_service_refuted : exists w b v seen s', proper w /\ 0 < b /\ 0 < v /\ eval kml_library w (b, v) = (seen, s', true) /\ s' = (b, b) /\ s' <> (b, v).
Proof. exact l_kml_service_refuted. Qed.
Print Assumptions C99_kml_service_refuted.

(** C99: if the library keeps one number per thread, then for every number of threads and every schedule each thread's calls see the numbers of its own with_num_threads, and its number is restored when it has finished. *)
Theorem C99_concurrent_local : forall loc cells ws schedule i t w, (forall i j, loc i = loc j -> i = j) -> Forall proper ws ->
  nth_error (m_threads (run loc (start cells ws) schedule)) i = Some t -> nth_error ws i = Some w ->
  (exists later, th_seen t ++ later = scoped (cells (loc i)) w) /\ (th_code t = [] -> th_seen t = scoped (cells (loc i)) w /\ m_cells (run loc (start cells ws) schedule) (loc i) = cells (loc i)).
Proof. exact l_concurrent_local. Qed.
Example C99_example_concurrent : let ws := [With 1 (Use Stop) Stop; With 4 (Use (With 2 (Use Stop) (Use Stop))) (Use Stop)] in let m := run (fun i => i) (start (fun _ => 8) ws) [0; 1; 1; 0; 1; 1; 1; 0; 1; 0; 1; 1; 1; 1] in
  Forall proper ws /\ finished m /\ map th_seen (m_threads m) = [[1]; [4; 2; 4; 8]] /\ m_cells m 1 = 8.
Proof. split; [repeat constructor|]. split; [vm_compute; repeat constructor|]. split; reflexivity. Qed.
Print Assumptions C99_concurrent_local.

(** C99: if the number is process-wide, two threads that use with_num_threads at the same time may leave another number than the one from before. *)
Theorem C99_concurrent_restore_refuted : exists (ws : list work) schedule, Forall proper ws /\ (let m := run (fun _ => 0) (start (fun _ => 8) ws) schedule in finished m /\ m_cells m 0 <> 8).
Proof. exact l_concurrent_restore_refuted. Qed.
Print Assumptions C99_concurrent_restore_refuted.

(** C99: and a call inside with_num_threads(1, ..) may run with the 4 threads that another thread asked for. *)
Theorem C99_concurrent_scope_refuted : exists (ws : list work) schedule t, Forall proper ws /\ nth_error ws 0 = Some (With 1 (Use Stop) Stop) /\ nth_error (m_threads (run (fun _ => 0) (start (fun _ => 8) ws) schedule)) 0 = Some t /\ th_seen t = [4].
Proof. exact l_concurrent_scope_refuted. Qed.
Print Assumptions C99_concurrent_scope_refuted.
