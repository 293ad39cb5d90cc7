(** The circuits that the GKR gadget can be given. *)
From Coq Require Import List Arith.
From Verif Require Import Field MCircuit MSumcheck SpecSumcheck MGkr SpecGkr MSnark SpecSnark.
Import ListNotations.

Section S.
  Context {F : Field}.

  (** The degrees of the in-circuit layer are those that the native prover uses. *)
  Definition degrees_fit (sl : SLayer F) (l : Layer F) : Prop :=
    sDegHL sl = maxHL (lGates l) + 1 /\ sDegHR sl = maxHR (lGates l) + 1 /\ sDegHPrime sl = maxHP (lGates l) + 1.

  (** The variables given to the gadget for 2^bN copies: a proof as allocated, a point, inputs of 2^b and outputs for the last layer [l]. *)
  Definition gadget_vars (sc : list (SLayer F)) (b : nat) (l : Layer F) (bN : nat) (p : SProof nat) (cs : CS F) (qI qPI vIn vOut : list nat) : Prop :=
    cs_ok cs /\ proof_vars cs bN sc p /\ vars cs (qI ++ qPI ++ vIn ++ vOut) /\
    length qI = lBGOutputs l /\ length qPI = bN /\ length vIn = 2 ^ (b + bN) /\ length vOut = 2 ^ (lBGOutputs l + bN).

  (** Proof, layers: the first [n] only. *)
  Definition first_layers {V} (n : nat) (p : SProof V) : SProof V :=
    MkSProof (firstn n (sSumchecks p)) (firstn n (sLeft p)) (firstn n (sRight p)).
End S.
