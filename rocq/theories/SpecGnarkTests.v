(** When a witness structure solves a compiled circuit (groth16 Assert.SolvingSucceeded). *)
From Coq Require Import List Arith.
From Verif Require Import Field MSnark SpecSnark.
Import ListNotations.

Section S.
  Context {F : Field}.
  (** Some assignment of all wires satisfies the constraints and gives the variables [vs] exactly the values of the
      witness; a variable without a value has no such assignment. *)
  Definition solves (cs : CS F) (vs : list (list nat)) (witness : list (list (option F))) : Prop :=
    exists w, satisfied w cs /\ map (map (fun v => Some (w v))) vs = witness.
  (** [n] rows of [m] elements *)
  Definition rect {A} (n m : nat) (l : list (list A)) : Prop := length l = n /\ forall r, In r l -> length r = m.
End S.
