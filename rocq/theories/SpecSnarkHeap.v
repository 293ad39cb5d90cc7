(** What the memory-level theorems about snark/ are stated with: memory is a list of variables, given by their wires. *)
From Coq Require Import List.
From Verif Require Import MHeap.

(** the values of a slice *)
Definition vtab (m : list nat) (s : Slice) : list nat := firstn (slen s) (skipn (base s) m).
(** a slice lies within the memory, with its spare capacity *)
Definition vwf (m : list nat) (s : Slice) : Prop := slen s <= scap s /\ base s + scap s <= length m.
(** all cells of [m] are unchanged in [m'] *)
Definition vext (m m' : list nat) : Prop := exists new, m' = m ++ new.
