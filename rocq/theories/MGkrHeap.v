(** Memory-level model of gkr/prover.go: the assignment and the tables of the sum-check provers are slices of one
    memory.  Circuit, proof and points are kept by value. *)
From Coq Require Import List Arith ZArith Lia Bool.
From Verif Require Import Field Go MCommon MPoly MCircuit MSumcheck MSumPar MGkr MHeap SpecHeap MSumHeap.
Import ListNotations.

Section Gkr.
  Context {F : Field}.
  Open Scope F_scope.
  Variable GetChallenge : list F -> F.
  Notation Mem := (list F).

  (** What a call of MultiThreadedProver.Prove(nCore) does to the memory and returns; [None] for a panic.  Any
      function here; the theorems take it to do what the schedules of the machine of MSumHeap.v do. *)
  Variable hmtProve : Mem -> HMT F -> option (Mem * (list (list F) * list F * list F * list F * list F)).

  (** Tables filled with the given values in new memory.  Stands for GetStaticTable, GetChunkedEqTable and
      LinearCombinationOfBookKeepingTables, whose results are slices made by these functions (or, for the last, its
      argument staticsR[i], made just before) and which write to no other memory. *)
  Definition hmake (m : Mem) (tabs : list (list F)) : Mem * list Slice :=
    fold_left (fun '(m, acc) t => (m ++ t, acc ++ [MkSlice (length m) (length t) (length t)])) tabs (m, []).

  (** circuit/circuit.go:20 Assignment *)
  Definition HAssignment := list (list Slice).

  (** circuit/circuit.go:50-68 LayerAsBKTWithCopy, goroutines one after the other *)
  Definition HLayerWithCopy (m : Mem) (a : HAssignment) (layer : nat) : option (Mem * list Slice) :=
    ss <- get a layer ;; HCopyAll m ss.

  (** circuit/circuit.go:71-78 LayerAsBKTNoCopy: the slices themselves *)
  Definition HLayerNoCopy (m : Mem) (a : HAssignment) (layer : nat) : option (Mem * list Slice) :=
    ss <- get a layer ;; Some (m, ss).

  (** The values of an assignment *)
  Definition viewA (m : Mem) (a : HAssignment) : Assignment F := map (map (tab m)) a.

  (** gkr/prover.go:27-34 NewProver *)
  Definition hproverBN (c : Circuit F) (a : HAssignment) : option nat :=
    v0 <- get a 0 ;;
    v00 <- get v0 0 ;;
    l0 <- get c 0 ;;
    gosub (log2ceil (length v0 * slen v00)) (lBGInputs l0).

  (** gkr/prover.go:55-70, 106-110 *)
  Definition HInitialRound (m : Mem) (c : Circuit F) (a : HAssignment) (qPrime q : list F) (nCore : nat)
    : option (Mem * HMT F) :=
    layer <- gosub (length c) 1 ;;
    l <- get c layer ;;
    statics <- GetStaticTable l q ;;
    let (m, statics) := hmake m statics in
    '(m, vL) <- HLayerWithCopy m a layer ;;
    '(m, vR) <- HLayerWithCopy m a layer ;;
    eq <- GetChunkedEqTable qPrime (length vL) nCore ;;
    let (m, eq) := hmake m eq in
    Some (m, MkHMT vL vR eq (lGates l) statics).

  (** gkr/prover.go:73-103, 113-121 *)
  Definition HIntermediateRound (m : Mem) (c : Circuit F) (a : HAssignment) (layer : nat)
      (qPrime qL qR : list F) (lambdaL lambdaR : F) (nCore : nat) : option (Mem * HMT F) :=
    '(m, vL) <- HLayerWithCopy m a layer ;;
    '(m, vR) <- HLayerWithCopy m a layer ;;
    eq <- GetChunkedEqTable qPrime (length vL) nCore ;;
    let (m, eq) := hmake m eq in
    l <- get c layer ;;
    staticsL <- GetStaticTable l qL ;;
    staticsR <- GetStaticTable l qR ;;
    statics <- combineStatics staticsL staticsR lambdaL lambdaR ;;
    let (m, statics) := hmake m statics in
    Some (m, MkHMT vL vR eq (lGates l) statics).

  (** gkr/prover.go:138-152 *)
  Definition hproveLayer (c : Circuit F) (a : HAssignment) (nCore layer : nat)
      (st : Mem * Proof F * list F * list F * list F) : option (Mem * Proof F * list F * list F * list F) :=
    let '(m, pf, qPrime, qL, qR) := st in
    cl <- get (ClaimsLeft pf) (layer + 1) ;;
    cr <- get (ClaimsRight pf) (layer + 1) ;;
    let lambdaL := 1 in
    let lambdaR := GetChallenge [cl; cr] in
    '(m, prover) <- HIntermediateRound m c a layer qPrime qL qR lambdaL lambdaR nCore ;;
    '(m, (proof, qPrime, qL, qR, finalClaims)) <- hmtProve m prover ;;
    sps <- set (SumcheckProofs pf) layer proof ;;
    f0 <- get finalClaims 0 ;;
    f1 <- get finalClaims 1 ;;
    cls <- set (ClaimsLeft pf) layer f0 ;;
    crs <- set (ClaimsRight pf) layer f1 ;;
    Some (m, MkProof sps cls crs, qPrime, qL, qR).

  (** gkr/prover.go:124-160 Prove *)
  Definition HGkrProve (m : Mem) (c : Circuit F) (a : HAssignment) (nCore : nat) : option (Mem * Proof F) :=
    bN <- hproverBN c a ;;
    let nLayers := length c in
    last <- gosub nLayers 1 ;;
    l <- get c last ;;
    let '(qPrime, q) := GetInitialQPrimeAndQ bN (lBGOutputs l) in
    '(m, prover) <- HInitialRound m c a qPrime q nCore ;;
    '(m, (proof, qPrime, qL, qR, finalClaims)) <- hmtProve m prover ;;
    sps <- set (repeat [] nLayers) last proof ;;
    f0 <- get finalClaims 0 ;;
    f1 <- get finalClaims 1 ;;
    cls <- set (repeat 0 nLayers) last f0 ;;
    crs <- set (repeat 0 nLayers) last f1 ;;
    '(m, pf, _, _, _) <- foldM (fun st layer => hproveLayer c a nCore layer st)
      (rev (seq 0 last)) (m, MkProof sps cls crs, qPrime, qL, qR) ;;
    Some (m, pf).
End Gkr.
