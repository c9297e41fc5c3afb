(** Independent specification of allocated vectors *)
From Verif Require Import Base.
Local Open Scope Z_scope.

(** An element type: its size and alignment in bytes. *)
Record elem := mkElem { e_size : Z; e_align : Z }.
Definition sensible (t : elem) : Prop := 0 <= e_size t /\ 1 <= e_align t <= 64.
(** A vector of [v_len] elements; [v_block]: the bytes and the alignment of the block it owns, [None] when it owns none. *)
Record vector := mkVector { v_len : Z; v_block : option (Z * Z) }.
Definition room (v : vector) : Z := match v_block v with Some (bytes, _) => bytes | None => 0 end.
(** What dropping the vector gives back to the allocator, as the standard library computes it from the number of elements. *)
Definition given_back (t : elem) (v : vector) : option (Z * Z) := if v_len v * e_size t =? 0 then None else Some (v_len v * e_size t, e_align t).
