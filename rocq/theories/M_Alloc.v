(** Model of rstsr-common/src/alloc_vec.rs on Linux and macOS, 64-bit, with the default feature aligned_alloc.  [alloc bytes align]: whether the allocator returns
    a block (its address does not matter).  [checks]: arithmetic overflow panics (the debug profile) instead of wrapping (the release profile). *)
From Verif Require Import Base Spec_Alloc.
Local Open Scope Z_scope.

(** Result<Vec<T>> or a panic *)
Inductive outcome := Made (v : vector) | MemoryError | RuntimeError | Overflow.

Section Alloc.
  Context (alloc : Z -> Z -> bool) (checks : bool) (t : elem).
  (** alloc::alloc::Layout::from_size_align succeeds: the size rounded up to the alignment is at most isize::MAX *)
  Definition layout_fits (bytes align : Z) : bool := bytes <=? 2 ^ 63 - align.
  (** unaligned_uninitialized_vec, :48-53; try_reserve_exact of the standard library does not allocate for zero bytes *)
  Definition unaligned_uninitialized_vec (size : Z) : outcome :=
    let bytes := size * e_size t in
    if bytes =? 0 then Made (mkVector size None)
    else if negb (layout_fits bytes (e_align t)) then MemoryError
    else if alloc bytes (e_align t) then Made (mkVector size (Some (bytes, e_align t)))
    else MemoryError.
  (** aligned_uninitialized_vec::<T, 128>(size, 64), :85-100, with aligned_alloc, :62-69 inlined *)
  Definition aligned_uninitialized_vec (size : Z) : outcome :=
    if size =? 0 then Made (mkVector 0 None)
    else if size <? 128 then unaligned_uninitialized_vec size
    else if checks && (2 ^ 64 <=? size * e_size t) then Overflow
    else
      let bytes := (size * e_size t) mod 2 ^ 64 in
      if bytes =? 0 then RuntimeError
      else if negb (layout_fits bytes 64) then MemoryError
      else if alloc bytes 64 then Made (mkVector size (Some (bytes, 64)))
      else RuntimeError.
  (** uninitialized_vec, :25-36 *)
  Definition uninitialized_vec (size : Z) : outcome := aligned_uninitialized_vec size.
End Alloc.
