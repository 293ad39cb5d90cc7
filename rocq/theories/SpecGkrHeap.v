(** What the memory-level theorems about the GKR prover are stated with. *)
From Coq Require Import List Arith.
From Verif Require Import Field Trans MSumcheck MSumPar SpecSumPar MHeap SpecHeap MSumHeap SpecSumHeap.
Import ListNotations.

Section S.
  Context {F : Field}.

  (** [hmtProve] returns what every schedule of the memory-level multi-threaded sum-check prover returns, and changes
      what these may change, on arguments of the right shape. *)
  Definition follows_heap (ch : list F -> F) (nCore : nat)
      (hmtProve : list F -> HMT F -> option (list F * (list (list F) * list F * list F * list F * list F))) : Prop :=
    forall m p n k bG K c out, separateMT m p -> mt_ok (viewMT m p) n k bG -> Prove ch (whole (viewMT m p) k bG) = Some out ->
      hmtPrepare p = Some (n, bG, K, c) ->
      must (hmt_step ch p nCore n bG K c) (fun sm => main (fst sm) = MEnd out /\ only (tablesMT p) m (snd sm)) (hmt_init nCore n m) ->
      exists m', hmtProve m p = Some (m', out) /\ only (tablesMT p) m m'.
End S.
