(** Property theorems about owned and shared tensors (C63, C64).  A program is a list of statements of M_Shared.v; what it can
    see of its variables is defined in Spec_Shared.v. *)
From Verif Require Import Base Spec P_Index M_Layout M_Rearr M_Iter M_Kernel M_Tensor M_Shared Spec_Shared P_Strides P_Tensor Q_Tensor Q_Shared.
Local Open Scope Z_scope.

(** a shared matrix, a second handle on it (its transpose), a write through that handle *)
Definition ex_rows : layout := mkLayout [2; 3]%nat [3; 1] 0.
Definition ex_cols : layout := mkLayout [3; 2]%nat [1; 3] 0.
Definition ex_share : list (op Z) := [New [1; 2; 3; 4; 5; 6] ex_rows; IntoShared 0; Alias 0 ex_cols].
Definition ex_write : list (op Z) := ex_share ++ [Mutate 1 (fun t => upd (t_data t) 4 50)].
Definition seen {T} (r : res (store T)) (i : nat) : option (tensor T) := match r with Ok s => value s i | _ => None end.
Definition counts {T} (r : res (store T)) : list (option nat) := match r with Ok s => map (strong_count s) (seq 0 (length (s_vars s))) | _ => [] end.

(** C63: after any program, a statement changes no variable but the one it names: in particular a write through one of several handles on a buffer is not seen through the others. *)
Theorem C63_private : forall (T : Type) k dflt (ops : list (op T)) s o s' j, run k dflt ops = Ok s -> step k dflt s o = Ok s' ->
  (j < length (s_vars s))%nat -> acts_on o <> Some j -> value s' j = value s j.
Proof. exact l_private. Qed.
Example C63_example : seen (run Dyn RowMajor ex_write) 0 = Some (mkTensor [1; 2; 3; 4; 5; 6] ex_rows) /\
  seen (run Dyn RowMajor ex_write) 1 = Some (mkTensor [1; 2; 3; 4; 50; 6] ex_cols) /\
  counts (run Dyn RowMajor ex_share) = [Some 2%nat; Some 2%nat] /\ counts (run Dyn RowMajor ex_write) = [Some 1%nat; Some 1%nat].
Proof. vm_compute. auto. Qed.
Print Assumptions C63_private.

(** C63: a write through a variable, owned or shared, always succeeds and leaves in it exactly what was written; its layout stays. *)
Theorem C63_mutate : forall (T : Type) k dflt (ops : list (op T)) s i t f, run k dflt ops = Ok s -> value s i = Some t ->
  exists s', step k dflt s (Mutate i f) = Ok s' /\ value s' i = Some (mkTensor (f t) (t_layout t)).
Proof. exact l_mutate. Qed.
Print Assumptions C63_mutate.

(** C63: a second tensor over the buffer of a shared tensor shows the same data and shares the buffer. *)
Theorem C63_alias : forall (T : Type) k dflt (ops : list (op T)) s i t p l, run k dflt ops = Ok s -> value s i = Some t -> handle s i = Some p -> tensor_new (t_data t) l = Ok (mkTensor (t_data t) l) ->
  exists s', step k dflt s (Alias i l) = Ok s' /\ value s' (length (s_vars s)) = Some (mkTensor (t_data t) l) /\ shares s' i (length (s_vars s)).
Proof. exact l_alias. Qed.
Example C63_example_alias : match run Dyn RowMajor ex_share with Ok s => shares s 0 1 | _ => False end.
Proof. vm_compute. exists 0%nat. auto. Qed.
Print Assumptions C63_alias.

(** C63: cloning any tensor, shared or not, gives a new owned tensor of the same shape and elements. *)
Theorem C63_clone : forall (T : Type) k dflt (ops : list (op T)) s i t, run k dflt ops = Ok s -> value s i = Some t -> tensor_ok t ->
  exists s' c, step k dflt s (CloneOf i) = Ok s' /\ length (s_vars s') = (length (s_vars s) + 1)%nat /\ value s' (length (s_vars s)) = Some c /\ same_tensor c t /\ handle s' (length (s_vars s)) = None.
Proof. exact l_clone_of. Qed.
Example C63_example_clone : seen (run Dyn RowMajor (ex_share ++ [CloneOf 1])) 2 = Some (mkTensor [1; 2; 3; 4; 5; 6] ex_cols).
Proof. vm_compute. reflexivity. Qed.
Print Assumptions C63_clone.

(** C63: into_shared always ends and gives a shared tensor of the same shape and elements over a buffer of exactly that many elements. *)
Theorem C63_into_shared : forall (T : Type) k dflt (ops : list (op T)) s i t, run k dflt ops = Ok s -> value s i = Some t -> tensor_ok t ->
  exists s' c p, step k dflt s (IntoShared i) = Ok s' /\ value s' i = Some c /\ same_tensor c t /\ length (t_data c) = size (t_shape t) /\ handle s' i = Some p.
Proof. exact l_into_shared_arc. Qed.
Example C63_example_shared : seen (run Dyn RowMajor [New [1; 2; 3; 4; 5; 6] (mkLayout [2]%nat [2] 1); IntoShared 0]) 0 = Some (mkTensor [2; 4] (mkLayout [2]%nat [1] 0)).
Proof. vm_compute. reflexivity. Qed.
Print Assumptions C63_into_shared.

(** C63: into_owned gives an owned tensor of the same shape and elements; it can only fail by a panic, while another variable shares the buffer. *)
Theorem C63_into_owned : forall (T : Type) k dflt (ops : list (op T)) s i t, run k dflt ops = Ok s -> value s i = Some t -> tensor_ok t ->
  match step k dflt s (IntoOwned i) with
  | Ok s' => exists c, value s' i = Some c /\ same_tensor c t /\ length (t_data c) = size (t_shape t) /\ handle s' i = None
  | Err _ => False
  | Panic => exists j, j <> i /\ shares s i j
  end.
Proof. exact l_into_owned_arc. Qed.
Example C63_example_owned : seen (run Dyn RowMajor (ex_write ++ [IntoOwned 1])) 1 = Some (mkTensor [1; 2; 3; 4; 50; 6] ex_cols) /\
  tensor_ok (mkTensor [1; 2; 3; 4; 50; 6] ex_cols).
Proof. split; [vm_compute; reflexivity|unfold ex_cols; concrete_tensor]. Qed.
Print Assumptions C63_into_owned.

(** C64: into_owned succeeds on every tensor whose buffer no other variable shares.  Missing: shared buffers, refuted below. *)
Theorem C64_into_owned_partial : forall (T : Type) k dflt (ops : list (op T)) s i t, run k dflt ops = Ok s -> value s i = Some t -> tensor_ok t ->
  (forall j, shares s i j -> j = i) -> exists s' c, step k dflt s (IntoOwned i) = Ok s' /\ value s' i = Some c /\ same_tensor c t /\ handle s' i = None.
Proof. exact l_into_owned_unshared. Qed.
Print Assumptions C64_into_owned_partial.

(** C64, the claim that into_owned moves or clones (its documentation) is refuted: on a tensor that fills its buffer and shares it with another variable it always panics. *)
Theorem C64_into_owned_shared_refuted : forall (T : Type) k dflt (ops : list (op T)) s i j t, run k dflt ops = Ok s -> value s i = Some t -> tensor_ok t ->
  i <> j -> shares s i j -> addrs RowMajor (t_layout t) = consecutive 0 (length (t_data t)) -> l_offset (t_layout t) = 0%Z -> step k dflt s (IntoOwned i) = Panic.
Proof. exact l_into_owned_shared_refuted. Qed.
Example C64_example_panic : run Dyn RowMajor (ex_share ++ [IntoOwned 0]) = Panic /\ seen (run Dyn RowMajor ex_share) 0 = Some (mkTensor [1; 2; 3; 4; 5; 6] ex_rows) /\ addrs RowMajor ex_rows = consecutive 0 6.
Proof. vm_compute. auto. Qed.
Print Assumptions C64_into_owned_shared_refuted.

(** C64: into_cow keeps the tensor as it is, and panics exactly when another variable shares the buffer.  Missing: success in that case. *)
Theorem C64_into_cow_partial : forall (T : Type) k dflt (ops : list (op T)) s i t, run k dflt ops = Ok s -> value s i = Some t ->
  match step k dflt s (IntoCow i) with
  | Ok s' => value s' i = Some t /\ handle s' i = None /\ forall j, shares s i j -> j = i
  | Err _ => False
  | Panic => exists j, j <> i /\ shares s i j
  end.
Proof. exact l_into_cow. Qed.
Example C64_example_cow : run Dyn RowMajor (ex_share ++ [IntoCow 1]) = Panic /\ seen (run Dyn RowMajor (ex_share ++ [Drop 0; IntoCow 1])) 1 = Some (mkTensor [1; 2; 3; 4; 5; 6] ex_cols).
Proof. vm_compute. auto. Qed.
Print Assumptions C64_into_cow_partial.

(** C63: the strong count of a shared tensor is the number of variables over its buffer, after any program. *)
Theorem C63_strong_count : forall (T : Type) k dflt (ops : list (op T)) s i, run k dflt ops = Ok s ->
  strong_count s i = match handle s i with Some p => Some (length (holders s p)) | None => None end.
Proof. exact l_strong_count. Qed.
Example C63_example_count : counts (run Dyn RowMajor (ex_share ++ [Alias 0 ex_rows; Drop 1])) = [Some 2%nat; None; Some 2%nat].
Proof. vm_compute. reflexivity. Qed.
Print Assumptions C63_strong_count.

(** C63: once no variable is a handle on a buffer, its count is zero, so that it has been freed. *)
Theorem C63_released : forall (T : Type) k dflt (ops : list (op T)) s, run k dflt ops = Ok s -> (forall i, handle s i = None) -> forall p, arc_count (s_heap s) p = 0%nat.
Proof. exact l_released. Qed.
Example C63_example_released : match run Dyn RowMajor (ex_share ++ [Drop 0; Drop 1]) with Ok s => arc_count (s_heap s) 0 = 0%nat | _ => False end.
Proof. vm_compute. reflexivity. Qed.
Print Assumptions C63_released.
