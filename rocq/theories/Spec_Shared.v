(** What a program can see of its tensor variables (C63). *)
From Verif Require Import Base Spec M_Layout M_Tensor M_Shared.

(** the tensor a variable holds; [None] once moved out or dropped *)
Definition value {T} (s : store T) (i : nat) : option (tensor T) :=
  match nth_error (s_vars s) i with Some (Some (d, l)) => Some (mkTensor (data_raw (s_heap s) d) l) | _ => None end.
(** the reference-counted buffer a variable is a handle on, if any *)
Definition handle {T} (s : store T) (i : nat) : option nat :=
  match nth_error (s_vars s) i with Some (Some (DArc p, _)) => Some p | _ => None end.
(** two variables are handles on one buffer *)
Definition shares {T} (s : store T) (i j : nat) : Prop := exists p, handle s i = Some p /\ handle s j = Some p.
(** the variable a statement rewrites; the others only make a new variable *)
Definition acts_on {T} (o : op T) : option nat :=
  match o with
  | New _ _ | Alias _ _ | CloneOf _ => None
  | Mutate i _ | IntoOwned i | IntoShared i | IntoCow i | Drop i => Some i
  end.
(** same shape, same elements *)
Definition same_tensor {T} (c t : tensor T) : Prop :=
  tensor_ok c /\ t_shape c = t_shape t /\ forall ix, valid (t_shape t) ix -> at_ c ix = at_ t ix.
(** the variables over buffer [p] *)
Definition holders {T} (s : store T) (p : nat) : list nat := filter (fun j => match handle s j with Some q => Nat.eqb q p | None => false end) (seq 0 (length (s_vars s))).
