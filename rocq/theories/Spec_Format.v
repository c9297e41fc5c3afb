(** Independent specification of printed tensors: nested brackets, one line per row, a blank line between higher blocks, [...] for what is left out *)
From Coq Require Import Ascii String.
From Verif Require Import Base Spec.
From Coq Require Import List.
Local Open Scope nat_scope.
Local Open Scope list_scope.

(** A text is a list of characters; [str] turns a literal into one. *)
Definition text := list Ascii.ascii.
Definition str (s : String.string) : text := String.list_ascii_of_string s.
Definition repeated (s : String.string) (n : nat) : text := concat (repeat (str s) n).
Definition spaces (n : nat) : text := repeated " " n.
Definition newline : Ascii.ascii := Ascii.ascii_of_nat 10.
(** The items with [sep] between them. *)
Fixpoint join (sep : text) (items : list text) : text :=
  match items with [] => [] | [x] => x | x :: more => x ++ sep ++ join sep more end.

(** Indices shown along an axis of extent [n]: all of them up to [limit], otherwise the first and the last [mn] with [None], the dots, between. *)
Definition shown (limit mn n : nat) : list (option nat) :=
  if n <=? limit then map Some (seq 0 n) else map Some (seq 0 mn) ++ [None] ++ map Some (seq (n - mn) mn).

Section Display.
  Context {T : Type} (show : T -> text) (mx mn : nat).
  (** limits along a row, and along the axes that stack rows or blocks *)
  Definition row_limit : nat := Nat.max mx (2 * mn + 1).
  Definition stack_limit : nat := Nat.max (mx - 1) (2 * mn - 1).
  Definition cell (o : option T) : text := match o with Some x => show x | None => [] end.
  (** the block of the axes [s], the first of which is axis [k] of the tensor; [get] gives the elements *)
  Fixpoint block (k : nat) (s : list nat) (get : list nat -> option T) : text :=
    match s with
    | [] => cell (get [])
    | [n] => str "[" ++ concat (map (fun o => str " " ++ match o with Some i => cell (get [i]) | None => str "..." end) (shown row_limit mn n)) ++ str "]"
    | n :: rest => str "[" ++
        join ((if length rest =? 1 then [newline] else [newline; newline]) ++ spaces (k + 1))
          (map (fun o => match o with Some i => block (k + 1) rest (fun ix => get (i :: ix)) | None => str "..." end) (shown stack_limit mn n)) ++ str "]"
    end.
  Definition display (s : list nat) (get : list nat -> option T) : text := if size s =? 0 then str "[]" else block 0 s get.
End Display.

(** Depth of open brackets after a text, starting at depth [d]; [None] when one closes that is not open. *)
Fixpoint depth (d : nat) (x : text) : option nat :=
  match x with
  | [] => Some d
  | c :: r => if Ascii.eqb c "["%char then depth (S d) r else if Ascii.eqb c "]"%char then match d with 0 => None | S d => depth d r end else depth d r
  end.
Definition no_brackets (x : text) : Prop := ~ In "["%char x /\ ~ In "]"%char x.
