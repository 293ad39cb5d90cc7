(** What the multi-threaded prover is compared with. *)
From Coq Require Import List Arith Lia Bool.
From Verif Require Import Field Spec MCircuit SpecCircuit MSumcheck MSumPar.
Import ListNotations.

Section S.
  Context {F : Field}.
  Open Scope F_scope.

  (** Shape of the arguments of the multi-threaded prover: [n] chunks of [2^k] instances. *)
  Definition mt_ok (p : MTProver F) (n k bG : nat) : Prop :=
    (0 < n)%nat /\ length (tEq p) = n /\ length (tVL p) = n /\ length (tVR p) = n /\
    (forall c, In c (tEq p) -> length c = 2 ^ k)%nat /\
    (forall c, In c (tVL p) -> length c = 2 ^ (bG + k))%nat /\
    (forall c, In c (tVR p) -> length c = 2 ^ (bG + k))%nat /\
    length (tStatic p) = length (tGates p) /\
    (forall tab, In tab (tStatic p) -> length tab = 2 ^ bG * 2 ^ bG)%nat /\
    (bG = 0%nat \/ tGates p <> []) /\ (forall g, In g (tGates p) -> many_ok g).

  (** The single-threaded prover on the interleaved tables. *)
  Definition whole (p : MTProver F) (k bG : nat) : Prover F :=
    NewSingleThreadedProver (interleave (2 ^ (bG + k)) (tVL p)) (interleave (2 ^ (bG + k)) (tVR p))
      (interleave (2 ^ k) (tEq p)) (tGates p) (tStatic p).
End S.
