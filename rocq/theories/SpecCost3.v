(** How many multiplications the tables of a layer take, said without reference to loops. *)
From Coq Require Import List Arith.
From Verif Require Import Field MCircuit.

Section S.
  Context {F : Field}.

  (** The wiring tables of all gates at one point. *)
  Definition wiring_work (l : Layer F) : nat := length (lGates l) * (2 ^ (lBGOutputs l + 2 * lBGInputs l) - 2 ^ (2 * lBGInputs l)).

  (** The layer of the outputs: the table of eq for all instances, and the wiring at one point. *)
  Definition first_tables (l : Layer F) (bN : nat) : nat := (2 ^ bN - 1) + wiring_work l.

  (** A layer below: the wiring at two points, and two products for each entry of their combination. *)
  Definition inner_tables (l : Layer F) (bN : nat) : nat := (2 ^ bN - 1) + 2 * wiring_work l + length (lGates l) * (2 * 2 ^ (2 * lBGInputs l)).
End S.
