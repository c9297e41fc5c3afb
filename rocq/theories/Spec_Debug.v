(** Independent specification of the Debug text of layouts and tensors, and of the two preferred memory orders *)
From Coq Require Import Ascii String DecimalString.
From Verif Require Import Base Spec Spec_Format.
From Coq Require Import List.
Local Open Scope nat_scope.
Local Open Scope list_scope.

(** decimal digits of a natural number, and of an integer with a minus sign if it is negative *)
Definition digits (n : nat) : text := str (NilZero.string_of_uint (Nat.to_uint n)).
Definition decimal (z : Z) : text := str (NilZero.string_of_int (Z.to_int z)).

(** Axis [k] of [l] has extent [d], which is not 1, and stride [s]. *)
Definition long_axis (l : layout) (k d : nat) (s : Z) : Prop := nth_error (l_shape l) k = Some d /\ nth_error (l_stride l) k = Some s /\ d <> 1.
(** Strides are positive and do not decrease from one long axis to the next, and a step along the first axis is a step in memory. *)
Definition column_preferred (l : layout) : Prop :=
  (forall k d s, long_axis l k d s -> (1 <= s)%Z) /\
  (forall j k d e s t, j < k -> long_axis l j d s -> long_axis l k e t -> (s <= t)%Z) /\
  (forall d s, long_axis l 0 d s -> s = 1%Z).
(** The same from the last axis to the first. *)
Definition row_preferred (l : layout) : Prop :=
  (forall k d s, long_axis l k d s -> (1 <= s)%Z) /\
  (forall j k d e s t, j < k -> long_axis l j d s -> long_axis l k e t -> (t <= s)%Z) /\
  (forall d s, long_axis l (length (l_shape l) - 1) d s -> s = 1%Z).

(** The text of a layout: number of axes, whether that is a run-time number, a word on contiguity, then shape, strides and offset. *)
Definition listing (xs : list text) : text := str "[" ++ join (str ", ") xs ++ str "]".
Definition layout_lines (dyn : bool) (word : text) (l : layout) : text :=
  digits (length (l_shape l)) ++ str "-Dim" ++ (if dyn then str " (dyn)" else []) ++ str ", contiguous: " ++ word ++ [newline] ++
  str "shape: " ++ listing (map digits (l_shape l)) ++ str ", stride: " ++ listing (map decimal (l_stride l)) ++ str ", offset: " ++ decimal (l_offset l).
(** The letters of the properties that hold, in this order. *)
Definition letters (row row_pref col col_pref : bool) : text :=
  (if row then str "C" else []) ++ (if row_pref then str "c" else []) ++ (if col then str "F" else []) ++ (if col_pref then str "f" else []).
(** [word] tells the truth about [l]: Empty without elements; otherwise the letters, or Custom if there is none. *)
Definition truthful (l : layout) (word : text) : Prop :=
  if size (l_shape l) =? 0 then word = str "Empty"
  else exists row row_pref col col_pref,
    (row = true <-> map (addr l) (row_major (l_shape l)) = consecutive (l_offset l) (size (l_shape l))) /\
    (row_pref = true <-> row_preferred l) /\
    (col = true <-> map (addr l) (col_major (l_shape l)) = consecutive (l_offset l) (size (l_shape l))) /\
    (col_pref = true <-> column_preferred l) /\
    word = if row || row_pref || col || col_pref then letters row row_pref col col_pref else str "Custom".
(** The Debug text of a tensor: a heading, the elements, the device, the layout, the type and a closing line. *)
Definition report (elements device layout_text type_name : text) : text :=
  concat (map (fun x => x ++ [newline])
    [[]; str "=== Debug Tensor Print ==="; elements; device; layout_text; str "Type: " ++ type_name; str "=========================="]).
(** [z] is representable as isize. *)
Definition fits (z : Z) : Prop := (- 2 ^ 63 <= z < 2 ^ 63)%Z.
(** [x] is written on one line. *)
Definition one_line (x : text) : Prop := ~ In newline x.
