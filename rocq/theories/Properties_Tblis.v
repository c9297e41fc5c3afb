(** Property theorems about einsum and tensordot with TBLIS (C100-C102).  Statements use Spec.v, Spec_Tensordot.v, Spec_Tblis.v and the modelled
    entry points of M_Tblis.v only.  The library itself is a parameter with the contract [einsum_library]. *)
From Coq Require Import String Ascii.
From Verif Require Import Base Spec Spec_Views Spec_Tensordot M_Layout M_Tensor M_Faer M_Tblis Spec_Tblis P_Index P_Strides P_Tensor P_Tblis2 Q_Tblis.
Local Open Scope nat_scope.

(** A library as assumed exists for every scalar type, so that the theorems below are about something. *)
Theorem C100_library : forall T (zero one : T) add mul, exists lib, einsum_library zero one add mul lib.
Proof. exact l_tblis_library. Qed.
Definition tx_lib := @reference Z 0%Z 1%Z Z.add Z.mul.
Definition tx_dev := mkDevice 4 RowMajor.
Definition tx_a : placed Z := mkPlaced (mkTensor [1; 2; 3; 4; 5; 6]%Z (mkLayout [2; 3] [3; 1]%Z 0%Z)) tx_dev.
Definition tx_b : placed Z := mkPlaced (mkTensor [0; 1; 2; 3; 4; 5; 7]%Z (mkLayout [3; 2] [1; 3]%Z 1%Z)) tx_dev.
Definition tx_o : placed Z := mkPlaced (mkTensor [9; 9; 9; 9; 9; 9]%Z (mkLayout [2; 2] [-1; 3]%Z 1%Z)) tx_dev.
Example C100_library_example : einsum_library 0%Z 1%Z Z.add Z.mul tx_lib.
Proof. apply reference_ok. Qed.
Print Assumptions C100_library.

(** C100: operands on one device whose axes fit the subscripts: einsum succeeds, the result is on that device, contiguous in its default order, its axes are those named after the arrow, and each of its entries is the sum over the names that are not in the result of the products of the operands' elements.  The operands may have any strides and may be empty; names may repeat. *)
Theorem C100_einsum : forall T (zero one : T) add mul lib worker sub ins out ext ops dev g, einsum_library zero one add mul lib ->
  spells sub ins out -> well_named ins out -> ops <> [] -> (forall t, In t ops -> p_device t = dev) -> 0 < d_threads dev ->
  Forall2 (fun names t => tensor_ok (p_tensor t) /\ t_shape (p_tensor t) = map ext names) ins ops ->
  exists c, einsum_f lib worker sub ops g = (Ok (mkPlaced c dev), g) /\ tensor_ok c /\ t_layout c = contiguous (d_order dev) (map ext out) /\
    forall ix, valid (map ext out) ix -> exists x, at_ c ix = Some x /\ is_einsum zero one add mul ext ins out (read_tensors (map p_tensor ops)) ix x.
Proof. exact l_einsum. Qed.
Example C100_example : let ins := [list_ascii_of_string "ij"; list_ascii_of_string "jk"] in let out := list_ascii_of_string "ki" in
  spells (list_ascii_of_string "ij, jk -> ki") ins out /\ well_named ins out /\
  Forall2 (fun names t => tensor_ok (p_tensor t) /\ t_shape (p_tensor t) = map (fun c => if Ascii.eqb c "j" then 3 else 2) names) ins [tx_a; tx_b] /\
  einsum_f tx_lib false (list_ascii_of_string "ij, jk -> ki") [tx_a; tx_b] 7 = (Ok (mkPlaced (mkTensor [14; 32; 35; 83]%Z (contiguous RowMajor [2; 2])) tx_dev), 7).
Proof. split; [reflexivity|]. split.
  - split; [repeat constructor; vm_compute; lia|]. split; [repeat constructor; cbn; intuition discriminate|]. cbn. tauto.
  - split; [|reflexivity]. constructor; [split; [unfold tx_a; cbn [p_tensor]; concrete_tensor|reflexivity]|]. constructor; [|constructor]. split; [unfold tx_b; cbn [p_tensor]; concrete_tensor|reflexivity]. Qed.
Print Assumptions C100_einsum.

(** C100: with an output view of the right shape and distinct places the same entries are written to it; its layout and device stay, and nothing outside of it changes. *)
Theorem C100_einsum_output : forall T (zero one : T) add mul lib worker sub ins out ext ops o dev g, einsum_library zero one add mul lib ->
  spells sub ins out -> well_named ins out -> ops <> [] -> (forall t, In t ops -> p_device t = dev) -> 0 < d_threads dev ->
  Forall2 (fun names t => tensor_ok (p_tensor t) /\ t_shape (p_tensor t) = map ext names) ins ops ->
  p_device o = dev -> tensor_ok (p_tensor o) -> injective (t_layout (p_tensor o)) -> t_shape (p_tensor o) = map ext out ->
  exists c, einsum_with_output_f lib worker sub ops o g = (Ok (mkPlaced c dev), g) /\ t_layout c = t_layout (p_tensor o) /\ untouched_outside (t_layout c) (t_data (p_tensor o)) (t_data c) /\
    forall ix, valid (map ext out) ix -> exists x, at_ c ix = Some x /\ is_einsum zero one add mul ext ins out (read_tensors (map p_tensor ops)) ix x.
Proof. exact l_einsum_output. Qed.
Example C100_output_example : tensor_ok (p_tensor tx_o) /\ injective (t_layout (p_tensor tx_o)) /\
  einsum_with_output_f tx_lib true (list_ascii_of_string "ij,jk->ki") [tx_a; tx_b] tx_o 7 = (Ok (mkPlaced (mkTensor [35; 14; 9; 83; 32; 9]%Z (mkLayout [2; 2] [-1; 3]%Z 1%Z)) tx_dev), 7).
Proof. split; [unfold tx_o; cbn [p_tensor]; concrete_tensor|]. split; [|reflexivity].
  intros ix jx V W E. apply in_row_major in V. apply in_row_major in W. cbn in V, W. destruct V as [<-|[<-|[<-|[<-|[]]]]], W as [<-|[<-|[<-|[<-|[]]]]]; cbn in E; try reflexivity; discriminate. Qed.
Print Assumptions C100_einsum_output.

(** C100: if addition and multiplication are associative and commutative with units, the entry is determined by the operands (whatever order of contraction the library chooses). *)
Theorem C100_einsum_unique : forall T (zero one : T) add mul ext ins out read ix x y, commutative_monoid zero add -> commutative_monoid one mul ->
  is_einsum zero one add mul ext ins out read ix x -> is_einsum zero one add mul ext ins out read ix y -> x = y.
Proof. exact l_einsum_unique. Qed.
Print Assumptions C100_einsum_unique.

(** C100: without operands, with operands on different devices, or with an output on another device than an operand, einsum reports InvalidValue and does not touch the number of threads. *)
Theorem C100_einsum_checks : forall T (lib : nat -> list ascii -> list (tblis_tensor T) -> bool -> option (tblis_tensor T) -> option (answer T)) worker sub g,
  (einsum_f lib worker sub [] g = (Err InvalidValue, g)) /\ (forall o, einsum_with_output_f lib worker sub [] o g = (Err InvalidValue, g)) /\
  (forall ops t u, In t ops -> In u ops -> p_device t <> p_device u -> einsum_f lib worker sub ops g = (Err InvalidValue, g) /\ forall o, einsum_with_output_f lib worker sub ops o g = (Err InvalidValue, g)) /\
  (forall ops t o, In t ops -> p_device t <> p_device o -> einsum_with_output_f lib worker sub ops o g = (Err InvalidValue, g)).
Proof. exact l_einsum_checks. Qed.
Print Assumptions C100_einsum_checks.

(** C101: tensordot over the axes pa of a and pb of b, equal extents pairwise: the result has the other axes of a, then the other axes of b, in order, is contiguous in the device's default order, and its entry is the sum of the products over all the values of the contracted axes.  (At most 52 different axes, the number of letters.) *)
Theorem C101_tensordot : forall T (zero one : T) add mul lib worker a b axes dev g pa pb, einsum_library zero one add mul lib ->
  p_device a = dev -> p_device b = dev -> 0 < d_threads dev -> tensor_ok (p_tensor a) -> tensor_ok (p_tensor b) ->
  let sa := t_shape (p_tensor a) in let sb := t_shape (p_tensor b) in
  contracts (length sa) (length sb) axes pa pb -> pick pa 0 sa = pick pb 0 sb -> length sa + length sb - length pa <= 52 ->
  let fa := pick (axes_except (length sa) pa) 0 sa in let fb := pick (axes_except (length sb) pb) 0 sb in
  exists c, tensordot_f lib worker a b axes g = (Ok (mkPlaced c dev), g) /\ tensor_ok c /\ t_layout c = contiguous (d_order dev) (fa ++ fb) /\
    forall ia ib, valid fa ia -> valid fb ib -> exists x, at_ c (ia ++ ib) = Some x /\ is_tensordot zero add mul (p_tensor a) (p_tensor b) pa pb ia ib x.
Proof. exact l_tblis_tensordot. Qed.
Example C101_example : contracts 2 2 (PairOf (AxVec [-1]%Z) (AxVal 0%Z)) [1] [0] /\ pick [1] 0 (t_shape (p_tensor tx_a)) = pick [0] 0 (t_shape (p_tensor tx_b)) /\
  tensordot_f tx_lib false tx_a tx_b (PairOf (AxVec [-1]%Z) (AxVal 0%Z)) 7 = (Ok (mkPlaced (mkTensor [14; 35; 32; 83]%Z (contiguous RowMajor [2; 2])) tx_dev), 7).
Proof. split; [|split; reflexivity]. econstructor; [constructor|constructor| | | |].
  - constructor; [split; [lia|right; reflexivity]|constructor].
  - constructor; [split; [lia|left; reflexivity]|constructor].
  - constructor; [intros []|constructor].
  - constructor; [intros []|constructor]. Qed.
Print Assumptions C101_tensordot.

(** C101: the same with an output view, of which layout and device stay and outside of which nothing changes. *)
Theorem C101_tensordot_output : forall T (zero one : T) add mul lib worker a b axes o dev g pa pb, einsum_library zero one add mul lib ->
  p_device a = dev -> p_device b = dev -> 0 < d_threads dev -> tensor_ok (p_tensor a) -> tensor_ok (p_tensor b) ->
  let sa := t_shape (p_tensor a) in let sb := t_shape (p_tensor b) in
  contracts (length sa) (length sb) axes pa pb -> pick pa 0 sa = pick pb 0 sb -> length sa + length sb - length pa <= 52 ->
  let fa := pick (axes_except (length sa) pa) 0 sa in let fb := pick (axes_except (length sb) pb) 0 sb in
  p_device o = dev -> tensor_ok (p_tensor o) -> injective (t_layout (p_tensor o)) -> t_shape (p_tensor o) = fa ++ fb ->
  exists c, tensordot_with_output_f lib worker a b axes o g = (Ok (mkPlaced c dev), g) /\ t_layout c = t_layout (p_tensor o) /\ untouched_outside (t_layout c) (t_data (p_tensor o)) (t_data c) /\
    forall ia ib, valid fa ia -> valid fb ib -> exists x, at_ c (ia ++ ib) = Some x /\ is_tensordot zero add mul (p_tensor a) (p_tensor b) pa pb ia ib x.
Proof. exact l_tblis_tensordot_output. Qed.
Print Assumptions C101_tensordot_output.

(** C101: in exact arithmetic the entry is the sum of a(ia, k) b(k, ib) over all k. *)
Theorem C101_tensordot_exact : forall T (zero : T) add mul (a b : tensor T) pa pb ia ib x (A B : list nat -> T), commutative_monoid zero add -> (forall y z, mul y z = mul z y) ->
  is_tensordot zero add mul a b pa pb ia ib x -> (forall ix y, at_ a ix = Some y -> A ix = y) -> (forall ix y, at_ b ix = Some y -> B ix = y) ->
  x = fold_right add zero (map (fun kx => mul (A (merge (length (t_shape a)) pa kx ia)) (B (merge (length (t_shape b)) pb kx ib))) (row_major (pick pa 0 (t_shape a)))).
Proof. exact l_tensordot_exact. Qed.
Print Assumptions C101_tensordot_exact.

(** C101: axes that make no sense, more than 52 axes, operands on different devices and an output on another device are refused with an error, and the number of threads is not touched. *)
Theorem C101_tensordot_checks : forall T (lib : nat -> list ascii -> list (tblis_tensor T) -> bool -> option (tblis_tensor T) -> option (answer T)) worker (a b o : placed T) axes g,
  let da := length (t_shape (p_tensor a)) in let db := length (t_shape (p_tensor b)) in
  ((~ exists pa pb, contracts da db axes pa pb) -> exists e, tensordot_f lib worker a b axes g = (Err e, g) /\ tensordot_with_output_f lib worker a b axes o g = (Err e, g)) /\
  (forall pa pb, contracts da db axes pa pb -> length pa = length pb -> 52 < da + db - length pa -> tensordot_f lib worker a b axes g = (Err InvalidValue, g) /\ tensordot_with_output_f lib worker a b axes o g = (Err InvalidValue, g)) /\
  (forall pa pb, contracts da db axes pa pb -> length pa = length pb -> p_device a <> p_device b -> tensordot_f lib worker a b axes g = (Err InvalidValue, g) /\ tensordot_with_output_f lib worker a b axes o g = (Err InvalidValue, g)) /\
  (forall pa pb, contracts da db axes pa pb -> length pa = length pb -> p_device a <> p_device o -> tensordot_with_output_f lib worker a b axes o g = (Err InvalidValue, g)).
Proof. exact l_tensordot_checks. Qed.
Print Assumptions C101_tensordot_checks.

(** C102: the library is only called with the device's number of threads, and with 1 on a worker thread of rayon: two libraries that agree for that number of threads give the same results, whatever the number of threads set before. *)
Theorem C102_threads : forall T (lib lib' : nat -> list ascii -> list (tblis_tensor T) -> bool -> option (tblis_tensor T) -> option (answer T)) (worker : bool) sub (ops : list (placed T)) dev,
  (forall t, In t ops -> p_device t = dev) -> (forall s x r o, lib (if worker then 1 else d_threads dev) s x r o = lib' (if worker then 1 else d_threads dev) s x r o) ->
  forall g g', fst (einsum_f lib worker sub ops g) = fst (einsum_f lib' worker sub ops g') /\ forall o, fst (einsum_with_output_f lib worker sub ops o g) = fst (einsum_with_output_f lib' worker sub ops o g').
Proof. exact l_tblis_threads. Qed.
Example C102_example : let lib n s x r o := if n =? 4 then tx_lib n s x r o else None in
  fst (einsum_f lib false (list_ascii_of_string "ij,jk->ki") [tx_a; tx_b] 7) = Ok (mkPlaced (mkTensor [14; 32; 35; 83]%Z (contiguous RowMajor [2; 2])) tx_dev) /\
  einsum_f lib true (list_ascii_of_string "ij,jk->ki") [tx_a; tx_b] 7 = (Err InvalidValue, 1).
Proof. split; reflexivity. Qed.
Print Assumptions C102_threads.

(** C102: the library's number of threads is afterwards what it was before, whatever the outcome, unless the library reports an error. *)
Theorem C102_restored : forall T (lib : nat -> list ascii -> list (tblis_tensor T) -> bool -> option (tblis_tensor T) -> option (answer T)) (worker : bool) sub (ops : list (placed T)) g,
  (forall t, In t ops -> forall x r o, lib (if worker then 1 else d_threads (p_device t)) sub x r o <> None) ->
  snd (einsum_f lib worker sub ops g) = g /\ forall o, snd (einsum_with_output_f lib worker sub ops o g) = g.
Proof. exact l_tblis_restored. Qed.
Print Assumptions C102_restored.

(** C102: when the library reports an error, for instance about the subscripts, the number of threads is not restored: it stays at the device's number. *)
Theorem C102_restored_refuted : forall T (lib : nat -> list ascii -> list (tblis_tensor T) -> bool -> option (tblis_tensor T) -> option (answer T)) sub (ops : list (placed T)) dev g,
  ops <> [] -> (forall t, In t ops -> p_device t = dev) -> (forall n x r o, lib n sub x r o = None) -> g <> d_threads dev ->
  exists g', einsum_f lib false sub ops g = (Err InvalidValue, g') /\ g' <> g.
Proof. exact l_tblis_restored_refuted. Qed.
Print Assumptions C102_restored_refuted.
