(** Model of sumcheck/testing.go: the provers built for the tests and benchmarks of package sumcheck. *)
From Coq Require Import List Arith ZArith NArith Lia Bool.
From Verif Require Import Field FrPrime Fr Go MCommon MPoly MCircuit MSumcheck MSumPar MString.
Import ListNotations.

Section Testing.
  Let zero : Fr := 0%F.
  Let one : Fr := 1%F.
  Definition two : Fr := Uint64ToFr 2.

  (** sumcheck/testing.go:27-30 and 66-69: the table of the cipher gates and the one of the copy gates, folded once *)
  Definition testStatics : option (list (list Fr)) :=
    cipher <- Fold [zero; zero; one; zero; zero; zero; zero; zero] two ;;
    copy <- Fold [zero; zero; zero; zero; zero; zero; one; zero] two ;;
    Some [copy; cipher].

  Definition testGates : list (Gate Fr) := [CopyGate; CipherGate two].

  (** sumcheck/testing.go:12-48 InitializeMultiThreadedProver, of non-negative arguments *)
  Definition InitializeMultiThreadedProver (bN nChunks : nat) : option (MTProver Fr) :=
    let qPrime := repeat two bN in
    eq <- GetChunkedEqTable qPrime nChunks 1 ;;
    statics <- testStatics ;;
    vL <- mapM (fun k =>
      size <- godiv (2 ^ (bN + 1)) nChunks ;;
      Some (map (fun i => Uint64ToFr (N.of_nat (k + nChunks * i))) (seq 0 size))) (seq 0 nChunks) ;;
    let vR := map DeepCopy vL in
    Some (MkMT vL vR eq testGates statics).

  (** sumcheck/testing.go:51-83 InitializeProverForTests *)
  Definition InitializeProverForTests (bN : nat) : option (Prover Fr) :=
    let qPrime := repeat two bN in
    eq <- GetFoldedEqTable qPrime ;;
    statics <- testStatics ;;
    let vL := map (fun i => Uint64ToFr (N.of_nat i)) (seq 0 (2 ^ (bN + 1))) in
    let vR := DeepCopy vL in
    Some (NewSingleThreadedProver vL vR eq testGates statics).
End Testing.
