(** Lebedev rules: the accuracy of the tables, checked. *)
From Coq Require Import Reals.
From Verif Require Import Base M_Lebedev P_Lebedev2 P_Lebedev3 P_Lebedev4.
Local Open Scope Z_scope.

Lemma accurate_6 : accurate_table 59 1 table_6 = true.
Proof. vm_compute. reflexivity. Qed.
Lemma accurate_14 : accurate_table 61 2 table_14 = true.
Proof. vm_compute. reflexivity. Qed.
Lemma accurate_26 : accurate_table 63 3 table_26 = true.
Proof. vm_compute. reflexivity. Qed.
Lemma accurate_38 : accurate_table 64 4 table_38 = true.
Proof. vm_compute. reflexivity. Qed.
Lemma accurate_50 : accurate_table 66 5 table_50 = true.
Proof. vm_compute. reflexivity. Qed.
Lemma accurate_74 : accurate_table 68 6 table_74 = true.
Proof. vm_compute. reflexivity. Qed.
Lemma accurate_86 : accurate_table 69 7 table_86 = true.
Proof. vm_compute. reflexivity. Qed.
Lemma accurate_110 : accurate_table 71 8 table_110 = true.
Proof. vm_compute. reflexivity. Qed.
Lemma accurate_146 : accurate_table 73 9 table_146 = true.
Proof. vm_compute. reflexivity. Qed.
Lemma accurate_170 : accurate_table 75 10 table_170 = true.
Proof. vm_compute. reflexivity. Qed.
Lemma accurate_194 : accurate_table 76 11 table_194 = true.
Proof. vm_compute. reflexivity. Qed.
Lemma accurate_230 : accurate_table 78 12 table_230 = true.
Proof. vm_compute. reflexivity. Qed.
Lemma accurate_266 : accurate_table 80 13 table_266 = true.
Proof. vm_compute. reflexivity. Qed.
Lemma accurate_302 : accurate_table 81 14 table_302 = true.
Proof. vm_compute. reflexivity. Qed.
Lemma accurate_350 : accurate_table 83 15 table_350 = true.
Proof. vm_compute. reflexivity. Qed.
Lemma accurate_434 : accurate_table 86 17 table_434 = true.
Proof. vm_compute. reflexivity. Qed.
Lemma accurate_590 : accurate_table 92 20 table_590 = true.
Proof. vm_compute. reflexivity. Qed.
Lemma accurate_770 : accurate_table 97 23 table_770 = true.
Proof. vm_compute. reflexivity. Qed.
(** the rules of order at most 47 *)
Lemma tables_accurate n m rows : n <= 47 -> order_to_degree n = Ok m -> grid_table m = Ok rows -> forall i j k, 2 * Z.of_nat (i + j + k) <= n -> close rows tiny i j k.
Proof. intros Hn H E i j k L. pose proof (order_facts n m H) as (rows' & E' & _ & R & _). rewrite E in E'. injection E' as <-. apply order_entry in H. unfold order_to_degree_table in H.
  repeat match type of H with In _ (_ :: _) => destruct H as [H | H]; [injection H as <- <-; try lia|] | In _ [] => destruct H end; cbn [grid_table Z.eqb Pos.eqb] in E; injection E as <-.
  - apply (accurate_table_ok 59 1); [lia|exact R|exact accurate_6|lia].
  - apply (accurate_table_ok 61 2); [lia|exact R|exact accurate_14|lia].
  - apply (accurate_table_ok 63 3); [lia|exact R|exact accurate_26|lia].
  - apply (accurate_table_ok 64 4); [lia|exact R|exact accurate_38|lia].
  - apply (accurate_table_ok 66 5); [lia|exact R|exact accurate_50|lia].
  - apply (accurate_table_ok 68 6); [lia|exact R|exact accurate_74|lia].
  - apply (accurate_table_ok 69 7); [lia|exact R|exact accurate_86|lia].
  - apply (accurate_table_ok 71 8); [lia|exact R|exact accurate_110|lia].
  - apply (accurate_table_ok 73 9); [lia|exact R|exact accurate_146|lia].
  - apply (accurate_table_ok 75 10); [lia|exact R|exact accurate_170|lia].
  - apply (accurate_table_ok 76 11); [lia|exact R|exact accurate_194|lia].
  - apply (accurate_table_ok 78 12); [lia|exact R|exact accurate_230|lia].
  - apply (accurate_table_ok 80 13); [lia|exact R|exact accurate_266|lia].
  - apply (accurate_table_ok 81 14); [lia|exact R|exact accurate_302|lia].
  - apply (accurate_table_ok 83 15); [lia|exact R|exact accurate_350|lia].
  - apply (accurate_table_ok 86 17); [lia|exact R|exact accurate_434|lia].
  - apply (accurate_table_ok 92 20); [lia|exact R|exact accurate_590|lia].
  - apply (accurate_table_ok 97 23); [lia|exact R|exact accurate_770|lia]. Qed.
