(** Model of rstsr-core/src/format/format_tensor.rs: printing a tensor.  The formatter is a text that grows (writing to it never fails); [show] prints one
    element.  [offset] is computed in isize and stored as usize: the casts back and forth are the identity of the two's complement representation, so it is
    one integer here.  Rust's tail calls of print_vec_with_layout_dfs_inner are steps of a loop with [fuel]; [None]: out of fuel. *)
From Coq Require Import Ascii String.
From Verif Require Import Base Spec Spec_Format M_Layout M_Tensor.
From Coq Require Import List.
Local Open Scope nat_scope.
Local Open Scope list_scope.

(** fields of FnPrintVecWithLayout that change, :8-21; [idx_prev] is kept as a stack, last element first *)
Record printer := mkPrinter { p_offset : Z; p_idx : list nat; p_out : text }.

(** [nbra - 1], :103-110 *)
Fixpoint leading_zeros (idx : list nat) : nat := match idx with 0 :: r => S (leading_zeros r) | _ => 0 end.
(** [nket - 1], :143-150; [shape[i]] is not 0 here: zero extents return earlier, :48-51, 93-96 *)
Fixpoint trailing_ends (shape : list nat) (idx : list nat) : nat :=
  match idx with
  | [] => 0
  | p :: r => if p =? nth (length r) shape 0 - 1 then S (trailing_ends shape r) else 0
  end.

Section Print.
  Context {T : Type} (show : T -> text).
  (** [write!(fmt, " ")?; fmt_elem(&vec[offset_i], fmt)?] for the positions of a range, :118-122, 125-129, 131-135 *)
  Definition print_range (vec : list T) (offset stride_last : Z) (range : list nat) : res text :=
    let* xs := map_res (fun i => match peek vec (offset + Z.of_nat i * stride_last) with Some x => Ok (str " " ++ show x) | None => Panic end) range in
    Ok (concat xs).
  (** the values of a row, :115-136 *)
  Definition print_row (mx mn nlast : nat) (stride_last : Z) (vec : list T) (offset : Z) : res text :=
    if nlast <=? Nat.max mx (2 * mn + 1) then print_range vec offset stride_last (seq 0 nlast)
    else let* a := print_range vec offset stride_last (seq 0 mn) in
         let* b := print_range vec offset stride_last (seq (nlast - mn) mn) in
         Ok (a ++ str " ..." ++ b).
  (** one call of print_vec_with_layout_dfs_inner, :25-191: done with this text, or another call *)
  Definition dfs_step (vec : list T) (l : layout) (mx mn : nat) (c : printer) : res (text + printer) :=
    let shape := l_shape l in
    let stride := l_stride l in
    let nd := ndim l in
    let offset := p_offset c in
    let out := p_out c in
    let len_prev := length (p_idx c) in
    if nd =? 0 then match peek vec (l_offset l) with Some x => Ok (inl (out ++ show x)) | None => Panic end
    else
    match p_idx c with
    | p1_prev :: below =>
        if p1_prev =? nth (len_prev - 1) shape 0 then
          if p1_prev =? 0 then Ok (inl (out ++ str "[]"))
          else
          match below with
          | [] => Ok (inl out)
          | p2_prev :: rest =>
              let offset := (offset - Z.of_nat p1_prev * nth (len_prev - 1) stride 0 - Z.of_nat p2_prev * nth (len_prev - 2) stride 0)%Z in
              let n := nth (len_prev - 2) shape 0 in
              let st := nth (len_prev - 2) stride 0%Z in
              if (n <? mx) || (n <=? p2_prev + mn) || (p2_prev + 1 <? mn)
              then Ok (inr (mkPrinter (offset + Z.of_nat (p2_prev + 1) * st) ((p2_prev + 1) :: rest) out))
              else Ok (inr (mkPrinter (offset + Z.of_nat (n - mn) * st) ((n - mn) :: rest) (out ++ spaces (len_prev - 1) ++ str "..." ++ [newline; newline])))
          end
        else if negb (len_prev + 1 =? nd) then Ok (inr (mkPrinter offset (0 :: p_idx c) out))
        else
          let nlast := nth (nd - 1) shape 0 in
          if nlast =? 0 then Ok (inl (out ++ str "[]"))
          else
            let nbra := 1 + leading_zeros (p_idx c) in
            let out := out ++ spaces (nd - nbra) ++ repeated "[" nbra in
            let* row := print_row mx mn nlast (nth (nd - 1) stride 0%Z) vec offset in
            let nket := 1 + trailing_ends shape (p_idx c) in
            let out := out ++ row ++ repeated "]" nket ++ (if negb (nket =? nd) then if 1 <? nket then [newline; newline] else [newline] else []) in
            let offset := (offset - Z.of_nat p1_prev * nth (len_prev - 1) stride 0)%Z in
            let n := nth (len_prev - 1) shape 0 in
            let st := nth (len_prev - 1) stride 0%Z in
            if (n <? mx) || (n <=? p1_prev + mn) || (p1_prev + 1 <? mn)
            then Ok (inr (mkPrinter (offset + Z.of_nat (p1_prev + 1) * st) ((p1_prev + 1) :: below) out))
            else Ok (inr (mkPrinter (offset + Z.of_nat (n - mn) * st) ((n - mn) :: below) (out ++ spaces len_prev ++ str "..." ++ [newline])))
    | [] =>
        if negb (0 + 1 =? nd) then Ok (inr (mkPrinter offset [0] out))
        else
          let nlast := nth (nd - 1) shape 0 in
          if nlast =? 0 then Ok (inl (out ++ str "[]"))
          else
            let* row := print_row mx mn nlast (nth (nd - 1) stride 0%Z) vec offset in
            Ok (inl (out ++ str "[" ++ row ++ str "]"))
    end.
  Fixpoint dfs (fuel : nat) (vec : list T) (l : layout) (mx mn : nat) (c : printer) : option (res text) :=
    match fuel with
    | 0 => None
    | S fuel =>
        match dfs_step vec l mx mn c with
        | Ok (inl out) => Some (Ok out)
        | Ok (inr c) => dfs fuel vec l mx mn c
        | Err e => Some (Err e)
        | Panic => Some Panic
        end
    end.
  (** print_vec_with_layout_generic, :193-209, as called by Display, LowerExp, UpperExp and Debug with the statics MAX_PRINT and MIN_PRINT, :231-238, 275-281 *)
  Definition print_tensor (fuel mx mn : nat) (t : tensor T) : option (res text) :=
    dfs fuel (t_data t) (t_layout t) mx mn (mkPrinter (l_offset (t_layout t)) [] []).
End Print.
(** default values of the statics, :5-6 *)
Definition MIN_PRINT : nat := 3.
Definition MAX_PRINT : nat := 8.
