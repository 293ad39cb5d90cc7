(** Which values fit the variables of a circuit, and which variables the verifier of the MiMC circuit can be
    built from. *)
From Coq Require Import List Arith Lia.
From Verif Require Import Field Go MGkr MSnark.
Import ListNotations.

(** Entry [i] of chunk [b] of [n] belongs in entry [b + i * n] of a table of [T] entries. *)
Definition fits_table {A} (T : nat) (values : list (list A)) : Prop :=
  forall b i, b < length values -> i < length (nth b values []) -> b + i * length values < T.

(** The first entries of a proof, one per layer. *)
Definition cut {F : Field} (n : nat) (pf : Proof F) : Proof F :=
  MkProof (firstn n (SumcheckProofs pf)) (firstn n (ClaimsLeft pf)) (firstn n (ClaimsRight pf)).

(** A sum-check of layer [j] has two rounds for the gates; the others are for the instances.  The rounds may grow in
    number from the outputs to the inputs, and the tables may be larger than needed.  [nI], [nP]: the coordinates
    of the initial point; [nIn], [nOut]: the entries of the tables. *)
Definition buildable (p : SProof nat) (nI nP nIn nOut : nat) : Prop :=
  let sp j := nth j (sSumchecks p) [] in
  91 <= length (sSumchecks p) /\ 91 <= length (sLeft p) /\ 91 <= length (sRight p) /\
  (forall j, j < 91 -> ~ In [] (sp j)) /\
  nP + 2 <= length (sp 90) /\ (forall j, j < 90 -> length (sp (S j)) <= length (sp j)) /\
  2 ^ (nI + nP) <= nOut /\ 2 ^ (length (sp 0) - 1) <= nIn.
