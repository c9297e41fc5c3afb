(** Property theorems about the unary operators of tensors (C123).  Statements use Spec.v, Spec_Unary.v and M_Unary.v only. *)
From Verif Require Import Base Spec Spec_Unary M_Layout M_Tensor M_Unary P_Tensor Q_Unary.
Local Open Scope Z_scope.

(** a broadcast vector of bytes that holds the lowest one, and one without it; an element behind the vector is not part of it *)
Definition un_low : tensor Z := mkTensor [5; -128; 7] (mkLayout [2; 2]%nat [0; 1] 0).
Definition un_ok : tensor Z := mkTensor [5; -127; -128] (mkLayout [2; 2]%nat [0; 1] 0).
Lemma un_low_ok : tensor_ok un_low. Proof. unfold un_low. concrete_tensor. Qed.
Lemma un_ok_ok : tensor_ok un_ok. Proof. unfold un_ok. concrete_tensor. Qed.
Lemma un_ints (t : tensor Z) : t = un_low \/ t = un_ok -> forall ix x, valid (t_shape t) ix -> at_ t ix = Some x -> is_int (Signed 8) x.
Proof. intros [-> | ->] ix x V; apply (P_Iter.in_enum RowMajor) in V; vm_compute in V; repeat (destruct V as [<-|V]; [vm_compute; intros [= <-]; split; congruence|]); destruct V. Qed.

(** C123: a unary operator of a borrowed tensor or view yields a new tensor of its shape with the operator's value of every element; it panics exactly when the operator does for an element of the tensor. *)
Theorem C123_unary_borrowed : forall (A B : Type) k dflt (h : A -> option B) (a : tensor A), tensor_ok a ->
  match unary_ref k dflt h a with
  | Ok c => tensor_ok c /\ t_shape c = t_shape a /\ forall ix, valid (t_shape a) ix -> exists x y, at_ a ix = Some x /\ h x = Some y /\ at_ c ix = Some y
  | Err _ => False
  | Panic => exists ix x, valid (t_shape a) ix /\ at_ a ix = Some x /\ h x = None
  end.
Proof. exact l_unary_ref. Qed.
Example C123_unary_borrowed_example : unary_ref Fixed RowMajor (fun x => if x =? 0 then None else Some (100 / x)) un_ok = Ok (mkTensor [20; 20; -1; -1] (mkLayout [2; 2]%nat [1; 2] 0)). Proof. reflexivity. Qed.
Print Assumptions C123_unary_borrowed.

(** C123: a unary operator of an owned tensor reuses its storage: every element is replaced once, also where a broadcast axis shows it several times, and nothing else changes. *)
Theorem C123_unary_owned : forall (A : Type) k (h : A -> option A) (a : tensor A), tensor_ok a ->
  match unary_owned k h a with
  | Ok c => t_layout c = t_layout a /\ untouched_outside (t_layout a) (t_data a) (t_data c) /\
      forall ix, valid (t_shape a) ix -> exists x y, at_ a ix = Some x /\ h x = Some y /\ at_ c ix = Some y
  | Err _ => False
  | Panic => exists ix x, valid (t_shape a) ix /\ at_ a ix = Some x /\ h x = None
  end.
Proof. exact l_unary_owned. Qed.
Example C123_unary_owned_example : tensor_ok un_ok /\ unary_owned Fixed (fun x => Some (x + 1)) un_ok = Ok (mkTensor [6; -126; -128] (t_layout un_ok)). Proof. split; [exact un_ok_ok|reflexivity]. Qed.
Print Assumptions C123_unary_owned.

(** C123: [- &a] of signed integers, modulo 2 to the number of bits; with overflow checks it panics exactly when the tensor holds the lowest number. *)
Theorem C123_neg_borrowed : forall k dflt checks w (a : tensor Z), 0 < w -> tensor_ok a -> (forall ix x, valid (t_shape a) ix -> at_ a ix = Some x -> is_int (Signed w) x) ->
  match neg_ref k dflt checks w a with
  | Ok c => (checks = true -> forall ix, valid (t_shape a) ix -> at_ a ix <> Some (lowest w)) /\ tensor_ok c /\ t_shape c = t_shape a /\
      forall ix, valid (t_shape a) ix -> exists x y, at_ a ix = Some x /\ at_ c ix = Some y /\ negative_of w x y
  | Err _ => False
  | Panic => checks = true /\ exists ix, valid (t_shape a) ix /\ at_ a ix = Some (lowest w)
  end.
Proof. exact l_neg_ref. Qed.
Example C123_neg_borrowed_example : (forall ix x, valid (t_shape un_low) ix -> at_ un_low ix = Some x -> is_int (Signed 8) x) /\ neg_ref Fixed RowMajor true 8 un_low = Panic /\
  neg_ref Fixed RowMajor false 8 un_low = Ok (mkTensor [-5; -5; -128; -128] (mkLayout [2; 2]%nat [1; 2] 0)). Proof. split; [apply un_ints; auto|split; reflexivity]. Qed.
Print Assumptions C123_neg_borrowed.

(** C123: [- a] of an owned tensor; a lowest number in the storage that is not an element does not make it panic. *)
Theorem C123_neg_owned : forall k checks w (a : tensor Z), 0 < w -> tensor_ok a -> (forall ix x, valid (t_shape a) ix -> at_ a ix = Some x -> is_int (Signed w) x) ->
  match neg_owned k checks w a with
  | Ok c => (checks = true -> forall ix, valid (t_shape a) ix -> at_ a ix <> Some (lowest w)) /\ t_layout c = t_layout a /\ untouched_outside (t_layout a) (t_data a) (t_data c) /\
      forall ix, valid (t_shape a) ix -> exists x y, at_ a ix = Some x /\ at_ c ix = Some y /\ negative_of w x y
  | Err _ => False
  | Panic => checks = true /\ exists ix, valid (t_shape a) ix /\ at_ a ix = Some (lowest w)
  end.
Proof. exact l_neg_owned. Qed.
Example C123_neg_owned_example : (forall ix x, valid (t_shape un_ok) ix -> at_ un_ok ix = Some x -> is_int (Signed 8) x) /\ neg_owned Fixed true 8 un_ok = Ok (mkTensor [-5; 127; -128] (t_layout un_ok)). Proof. split; [apply un_ints; auto|reflexivity]. Qed.
Print Assumptions C123_neg_owned.

(** C123: [! &a] and [! a] flip every bit of every element and never panic. *)
Theorem C123_not : forall k dflt t (a : tensor Z), 0 < width t -> tensor_ok a -> (forall ix x, valid (t_shape a) ix -> at_ a ix = Some x -> is_int t x) ->
  exists b c, not_ref k dflt t a = Ok b /\ not_owned k t a = Ok c /\ tensor_ok b /\ t_shape b = t_shape a /\ t_layout c = t_layout a /\ untouched_outside (t_layout a) (t_data a) (t_data c) /\
    forall ix, valid (t_shape a) ix -> exists x y, at_ a ix = Some x /\ at_ b ix = Some y /\ at_ c ix = Some y /\ complement_of t x y.
Proof. exact l_not. Qed.
Example C123_not_example : not_owned Fixed (Signed 8) un_ok = Ok (mkTensor [-6; 126; -128] (t_layout un_ok)) /\ not_ref Fixed RowMajor (Unsigned 8) (mkTensor [0; 255; 15] (mkLayout [3]%nat [1] 0)) = Ok (mkTensor [255; 0; 240] (mkLayout [3]%nat [1] 0)). Proof. split; reflexivity. Qed.
Print Assumptions C123_not.

(** C123: negating twice gives every element back, with and without overflow checks, in place or not. *)
Theorem C123_neg_neg : forall k dflt checks w (a b : tensor Z), 0 < w -> tensor_ok a -> (forall ix x, valid (t_shape a) ix -> at_ a ix = Some x -> is_int (Signed w) x) -> neg_ref k dflt checks w a = Ok b ->
  exists c d, neg_ref k dflt checks w b = Ok c /\ neg_owned k checks w b = Ok d /\ t_shape c = t_shape a /\ t_shape d = t_shape a /\ forall ix, valid (t_shape a) ix -> at_ c ix = at_ a ix /\ at_ d ix = at_ a ix.
Proof. exact l_neg_neg. Qed.
Example C123_neg_neg_example : bind (neg_ref Fixed RowMajor false 8 un_low) (neg_owned Fixed false 8) = Ok (mkTensor [5; 5; -128; -128] (mkLayout [2; 2]%nat [1; 2] 0)). Proof. vm_compute. reflexivity. Qed.
Print Assumptions C123_neg_neg.

(** C123: complementing twice gives every element back. *)
Theorem C123_not_not : forall k dflt t (a b : tensor Z), tensor_ok a -> not_ref k dflt t a = Ok b ->
  exists c d, not_ref k dflt t b = Ok c /\ not_owned k t b = Ok d /\ t_shape c = t_shape a /\ t_shape d = t_shape a /\ forall ix, valid (t_shape a) ix -> at_ c ix = at_ a ix /\ at_ d ix = at_ a ix.
Proof. exact l_not_not. Qed.
Example C123_not_not_example : bind (not_ref Fixed RowMajor (Signed 8) un_ok) (not_owned Fixed (Signed 8)) = Ok (mkTensor [5; 5; -127; -127] (mkLayout [2; 2]%nat [1; 2] 0)). Proof. vm_compute. reflexivity. Qed.
Print Assumptions C123_not_not.
