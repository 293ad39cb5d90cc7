(** Size of a proof of package gkr. *)
From Coq Require Import List Arith.
From Verif Require Import Field MCircuit SpecCircuit SpecSumcheck MGkr.
Import ListNotations.

Section S.
  Context {F : Field}.

  (** The number of field elements in a proof. *)
  Definition elements (pf : Proof F) : nat :=
    length (ClaimsLeft pf) + length (ClaimsRight pf) + length (concat (concat (SumcheckProofs pf))).

  (** The degree of the sum-check polynomials of a layer in each of the three kinds of variables is one more than that of the
      gates; the polynomial of a round has one coefficient more than its degree. *)
  Definition coefficients (l : Layer F) (bN : nat) : list nat :=
    repeat (maxHL (lGates l) + 2) (lBGInputs l) ++ repeat (maxHR (lGates l) + 2) (lBGInputs l) ++ repeat (maxHP (lGates l) + 2) bN.

  Definition layer_elements (l : Layer F) (bN : nat) : nat :=
    2 + lBGInputs l * (maxHL (lGates l) + 2) + lBGInputs l * (maxHR (lGates l) + 2) + bN * (maxHP (lGates l) + 2).
End S.
