(** Independent specification of triangles of matrices. *)
From Verif Require Import Base Spec Spec_Matmul.

(** FlagUpLo, rstsr-common/src/flags.rs *)
Inductive uplo := Upper | Lower.
(** FlagSymm, rstsr-common/src/flags.rs: symmetric, Hermitian, anti-symmetric, anti-Hermitian, none *)
Inductive symm := Sy | He | Ay | Ah | NoSymm.

Definition in_triangle (u : uplo) (i j : nat) : bool := match u with Lower => j <=? i | Upper => i <=? j end.
(** The cells (row, column) of a triangle of an n x n matrix: row by row for row-major, column by column for column-major. *)
Definition tri_cells (o : order) (u : uplo) (n : nat) : list (nat * nat) :=
  filter (fun c => in_triangle u (fst c) (snd c))
    (match o with RowMajor => list_prod (seq 0 n) (seq 0 n) | ColMajor => map (fun c => (snd c, fst c)) (list_prod (seq 0 n) (seq 0 n)) end).

(** What the two places (i, j) and (j, i) of an unpacked matrix hold, when [x] is the packed value of (i, j): off the diagonal and on it. *)
Definition mirrored {T} (conj opp : T -> T) (s : symm) (x : T) : T :=
  match s with Sy => x | He => conj x | Ay => opp x | Ah => opp (conj x) | NoSymm => x end.
Definition on_diagonal {T} (zero : T) (conj : T -> T) (s : symm) (x : T) : T :=
  match s with Sy | NoSymm => x | He => conj x | Ay | Ah => zero end.

(** Storage [a] under layout [la] holds the packed triangles of the stack of n x n matrices (batch shape [B]) in [b] under [lb]. *)
Definition is_packed {T} (o : order) (u : uplo) (n : nat) (B : list nat) (b : list T) (lb : layout) (a : list (option T)) (la : layout) : Prop :=
  forall bx p i j, valid B bx -> nth_error (tri_cells o u n) p = Some (i, j) ->
    exists x, elem b lb (mat o bx i j) = Some x /\ elem a la (vec o bx p) = Some (Some x).
(** Storage [a] under [la] holds the stack of matrices that the packed triangles in [b] under [lb] stand for. *)
Definition is_unpacked {T} (zero : T) (conj opp : T -> T) (o : order) (u : uplo) (s : symm) (n : nat) (B : list nat) (b : list T) (lb : layout) (a : list (option T)) (la : layout) : Prop :=
  forall bx p i j, valid B bx -> nth_error (tri_cells o u n) p = Some (i, j) -> exists x, elem b lb (vec o bx p) = Some x /\
    (i = j -> elem a la (mat o bx i j) = Some (Some (on_diagonal zero conj s x))) /\
    (i <> j -> elem a la (mat o bx i j) = Some (Some x) /\ elem a la (mat o bx j i) = Some (Some (mirrored conj opp s x))).
