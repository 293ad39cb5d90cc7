(** What the memory-level theorems about package hash are stated with. *)
From Coq Require Import List Arith.
From Verif Require Import Field MHeap SpecHeap.
Import ListNotations.

Section SpecHashHeap.
  Context {F : Field}.
  Open Scope F_scope.
  (** going from memory [m] to [m'], slice [s] got the contents [l'], and every other cell of [m] is unchanged *)
  Definition only_state (m m' : list F) (s : Slice) (l' : list F) : Prop :=
    tab m' s = l' /\ (length m <= length m')%nat /\ (forall a, (a < length m)%nat -> ~ cell s a -> nth a m' 0 = nth a m 0).
  (** the new cells may be written; with nothing else in it, [writable] makes all existing cells read-only *)
  Definition new_cells (m : list F) (writable : nat -> bool) : Prop := forall a, (length m <= a)%nat -> writable a = true.
End SpecHashHeap.
