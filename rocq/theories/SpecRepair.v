(** The proofs that the repaired verifier looks at. *)
From Coq Require Import List Arith.
From Verif Require Import Field MCircuit SpecCircuit SpecSumcheck MGkr SpecProof.
Import ListNotations.

Section S.
  Context {F : Field}.

  (** One entry per layer in each of the three lists, and round polynomials with the prescribed numbers of coefficients. *)
  Definition exact_shape (c : list (Layer F)) (bN : nat) (pf : Proof F) : Prop :=
    length (SumcheckProofs pf) = length c /\ length (ClaimsLeft pf) = length c /\ length (ClaimsRight pf) = length c /\
    forall j l, nth_error c j = Some l -> map (@length F) (nth j (SumcheckProofs pf) []) = coefficients l bN.
End S.
