(** Vocabulary of the statements about 64-bit integers (MInt.v). *)
From Coq Require Import List ZArith.
From Verif Require Import Field MCircuit MInt.
Import ListNotations.
Local Open Scope Z_scope.

(** [z] is a value of Go's type [int]. *)
Definition isInt (z : Z) : Prop := - 2 ^ 63 <= z < 2 ^ 63.

Section SpecInt.
  Context {F : Field}.

  (** A wire and a layer of the unbounded model, with the same numbers. *)
  Definition wire64 (w : Wire F) : Wire64 F :=
    MkWire64 (Z.of_nat (wL w)) (Z.of_nat (wR w)) (Z.of_nat (wO w)) (wGate w).
  Definition layer64 (l : Layer F) : Layer64 F :=
    MkLayer64 (map wire64 (Wires l)) (lGates l) (Z.of_nat (lBGInputs l)) (Z.of_nat (lBGOutputs l)).
  (** Indices whose successor is an [int] too. *)
  Definition small_wire (w : Wire F) : Prop :=
    Z.of_nat (wL w) < 2 ^ 63 - 1 /\ Z.of_nat (wR w) < 2 ^ 63 - 1 /\ Z.of_nat (wO w) < 2 ^ 63 - 1.
End SpecInt.
