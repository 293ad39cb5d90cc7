(** What the memory-level theorems about the sum-check provers are stated with. *)
From Coq Require Import List Arith.
From Verif Require Import Field MHeap SpecHeap MSumHeap.
Import ListNotations.

Section S.
  Context {F : Field}.
  Open Scope F_scope.
  Implicit Types (m : list F).

  (** The tables a single-threaded prover folds, all lying in the memory, no two of them sharing a cell. *)
  Definition tables1 (p : HProver F) : list Slice := pVL p :: pVR p :: pEq p :: pStatic p.
  Definition separate1 m (p : HProver F) : Prop :=
    (forall s, In s (tables1 p) -> swf m s) /\ ForallOrdPairs apart (tables1 p).

  (** The tables the multi-threaded prover folds: those of all chunks.  Its static tables are only copied: they may
      overlap each other, but not the folded ones. *)
  Definition tablesMT (p : HMT F) : list Slice := hVL p ++ hVR p ++ hEq p.
  Definition separateMT m (p : HMT F) : Prop :=
    (forall s, In s (tablesMT p ++ hStatic p) -> swf m s) /\ ForallOrdPairs apart (tablesMT p) /\
    (forall s s', In s (tablesMT p) -> In s' (hStatic p) -> apart s s').

  (** From [m] to [m'] the memory only grew, and of its cells only those of the slices [ss] changed. *)
  Definition only (ss : list Slice) m m' : Prop :=
    (length m <= length m')%nat /\
    forall a, (a < length m)%nat -> (forall s, In s ss -> ~ cell s a) -> nth a m' 0 = nth a m 0.
End S.
