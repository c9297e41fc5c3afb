(** Specification vocabulary for devices and thread numbers. *)
From Verif Require Import Base Spec M_Faer M_Device.
Local Open Scope nat_scope.

(** Configuring a device: the number of threads is requested from a place whose pool has [here] threads; 0 asks for that number. *)
Inductive setting := SetThreads (here n : nat) | SetOrder (o : order).
(** A device is created (a request as well) and then configured. *)
Definition configured (dflt : order) (here n : nat) (h : list setting) : rayon_device :=
  fold_left (fun d s => match s with SetThreads here n => set_num_threads here n d | SetOrder o => set_default_order o d end) h (rayon_new dflt here n).
(** The requests for threads in a history, as (here, n). *)
Definition requests (here n : nat) (h : list setting) : list (nat * nat) :=
  (here, n) :: flat_map (fun s => match s with SetThreads here n => [(here, n)] | SetOrder _ => [] end) h.
(** The last order set, if any. *)
Definition last_order (dflt : order) (h : list setting) : order :=
  fold_left (fun o s => match s with SetThreads _ _ => o | SetOrder o' => o' end) h dflt.
(** What a request asks for. *)
Definition asks_for (r : nat * nat) : nat := if snd r =? 0 then fst r else snd r.
(** Two consecutive requests of 0 come from places with equally many threads. *)
Definition steady (rs : list (nat * nat)) : Prop :=
  forall i h h', nth_error rs i = Some (h, 0) -> nth_error rs (S i) = Some (h', 0) -> h = h'.

(** Devices that may work together: one order and, unless they are serial, one number of threads. *)
Definition compatible (serial : bool) (d e : device) : Prop := d_order d = d_order e /\ (serial = false -> d_threads d = d_threads e).

(** The numbers of threads that the library calls of some work should see: the number of the innermost with_num_threads around the call, or the
    number [outer] from before. *)
Fixpoint scoped (outer : nat) (w : work) : list nat :=
  match w with
  | Stop | Abort => []
  | Use k => outer :: scoped outer k
  | With n body k => scoped n body ++ scoped outer k
  end.
(** Work that does not panic and asks for positive numbers of threads only. *)
Fixpoint proper (w : work) : Prop :=
  match w with
  | Stop => True
  | Abort => False
  | Use k => proper k
  | With n body k => 0 < n /\ proper body /\ proper k
  end.
(** A library that reports a positive number after it was set. *)
Definition obeys {S} (lib : library S) : Prop := forall n s, 0 < n -> lib_get lib (lib_set lib n s) = n.
(** Every thread has finished. *)
Definition finished (m : machine) : Prop := Forall (fun t => th_code t = []) (m_threads m).
