(** Specification for the memory-level verifier (C65). *)
From Coq Require Import List.
From Verif Require Import Field MHeap SpecHeap MVerHeap.

(** Every slice of the proof lies within the memory. *)
Definition pfwf {F : Field} (m : list F) (pf : HProof) : Prop :=
  (forall cs c, In cs (hSumcheckProofs pf) -> In c cs -> swf m c) /\ swf m (hClaimsLeft pf) /\ swf m (hClaimsRight pf).
