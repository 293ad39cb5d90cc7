(** Model of package gkr: prover.go, verifier.go. *)
From Coq Require Import List Arith ZArith Lia Bool.
From Verif Require Import Field Go MCommon MPoly MCircuit MSumcheck MSumPar.
Import ListNotations.

Section Gkr.
  Context {F : Field}.
  Open Scope F_scope.

  (** common/challenge.go:10-12 GetChallenge; any function here.  Instantiated with the model of
      hash.MimcHash (MHash.v) in the examples and in the theorems about MiMC. *)
  Variable GetChallenge : list F -> F.

  (** What a call of sumcheck.MultiThreadedProver.Prove(nCore) (sumcheck/par.go:81-148) returns:
      (proof, qPrime, qL, qR, finalClaims), or [None] for a panic.  That method is modelled as a
      state machine in MSumPar.v, where its result is shown not to depend on the schedule;
      here it is any function that returns what all schedules of that machine return
      (hypothesis [follows_machine] of the theorems). *)
  Variable mtProve : MTProver F -> option (list (list F) * list F * list F * list F * list F).

  (** gkr/prover.go:20-24 Proof *)
  Record Proof := MkProof {
    SumcheckProofs : list (list (list F)); ClaimsLeft : list F; ClaimsRight : list F }.

  (** gkr/prover.go:27-34 NewProver: the field bN.  A negative bN makes the first [make] of Prove
      panic (prover.go:39); here the panic is already in NewProver. *)
  Definition proverBN (c : Circuit F) (a : Assignment F) : option nat :=
    v0 <- get a 0 ;;
    v00 <- get v0 0 ;;
    l0 <- get c 0 ;;
    gosub (log2ceil (length v0 * length v00)) (lBGInputs l0).

  (** gkr/prover.go:37-52 GetInitialQPrimeAndQ (SetUint64 of a small int) *)
  Definition GetInitialQPrimeAndQ (bN bG : nat) : list F * list F :=
    let q := map (fun i => fnat (i + 1)) (seq 0 bG) in
    let qPrime := map (fun i => fnat (i + 1)) (seq 0 bN) in
    (qPrime, q).

  (** gkr/prover.go:55-70 GetBookKeepingTablesForInitialRound and 106-110
      InitialRoundSumcheckProver *)
  Definition InitialRoundSumcheckProver (c : Circuit F) (a : Assignment F) (qPrime q : list F) (nCore : nat)
    : option (MTProver F) :=
    layer <- gosub (length c) 1 ;;
    l <- get c layer ;;
    statics <- GetStaticTable l q ;;
    vL <- LayerAsBKTWithCopy a layer ;;
    vR <- LayerAsBKTWithCopy a layer ;;
    eq <- GetChunkedEqTable qPrime (length vL) nCore ;;
    Some (MkMT vL vR eq (lGates l) statics).

  (** gkr/prover.go:93-101: [statics[i] = LinearCombinationOfBookKeepingTables(...)]; the returned
      table is the second component (the first one is what becomes of staticsL[i]). *)
  Definition combineStatics (staticsL staticsR : list (list F)) (lambdaL lambdaR : F) : option (list (list F)) :=
    mapM (fun i =>
      tL <- get staticsL i ;;
      tR <- get staticsR i ;;
      '(_, t) <- LinearCombination tL tR lambdaL lambdaR ;;
      Some t) (seq 0 (length staticsL)).

  (** gkr/prover.go:73-103 GetBookKeepingTablesForIntermediateRound and 113-121
      IntermediateRoundsSumcheckProver *)
  Definition IntermediateRoundsSumcheckProver (c : Circuit F) (a : Assignment F) (layer : nat)
      (qPrime qL qR : list F) (lambdaL lambdaR : F) (nCore : nat) : option (MTProver F) :=
    vL <- LayerAsBKTWithCopy a layer ;;
    vR <- LayerAsBKTWithCopy a layer ;;
    eq <- GetChunkedEqTable qPrime (length vL) nCore ;;
    l <- get c layer ;;
    staticsL <- GetStaticTable l qL ;;
    staticsR <- GetStaticTable l qR ;;
    statics <- combineStatics staticsL staticsR lambdaL lambdaR ;;
    Some (MkMT vL vR eq (lGates l) statics).

  (** gkr/prover.go:138-152: the loop body for [layer].  The variable [claim] of lines 144-146 is
      not used. *)
  Definition proveLayer (c : Circuit F) (a : Assignment F) (nCore layer : nat)
      (st : Proof * list F * list F * list F) : option (Proof * list F * list F * list F) :=
    let '(pf, qPrime, qL, qR) := st in
    cl <- get (ClaimsLeft pf) (layer + 1) ;;
    cr <- get (ClaimsRight pf) (layer + 1) ;;
    let lambdaL := 1 in
    let lambdaR := GetChallenge [cl; cr] in
    prover <- IntermediateRoundsSumcheckProver c a layer qPrime qL qR lambdaL lambdaR nCore ;;
    '(proof, qPrime, qL, qR, finalClaims) <- mtProve prover ;;
    sps <- set (SumcheckProofs pf) layer proof ;;
    f0 <- get finalClaims 0 ;;
    f1 <- get finalClaims 1 ;;
    cls <- set (ClaimsLeft pf) layer f0 ;;
    crs <- set (ClaimsRight pf) layer f1 ;;
    Some (MkProof sps cls crs, qPrime, qL, qR).

  (** gkr/prover.go:124-160 Prove *)
  Definition GkrProve (c : Circuit F) (a : Assignment F) (nCore : nat) : option Proof :=
    bN <- proverBN c a ;;
    let nLayers := length c in
    last <- gosub nLayers 1 ;;
    l <- get c last ;;
    let '(qPrime, q) := GetInitialQPrimeAndQ bN (lBGOutputs l) in
    prover <- InitialRoundSumcheckProver c a qPrime q nCore ;;
    '(proof, qPrime, qL, qR, finalClaims) <- mtProve prover ;;
    sps <- set (repeat [] nLayers) last proof ;;
    f0 <- get finalClaims 0 ;;
    f1 <- get finalClaims 1 ;;
    cls <- set (repeat 0 nLayers) last f0 ;;
    crs <- set (repeat 0 nLayers) last f1 ;;
    (* for layer := nLayers - 2; layer >= 0; layer-- *)
    '(pf, _, _, _) <- foldM (fun st layer => proveLayer c a nCore layer st)
      (rev (seq 0 last)) (MkProof sps cls crs, qPrime, qL, qR) ;;
    Some pf.

  (** gkr/verifier.go:116-123 evaluateStaticTables.  [append(nextQL, nextQR...)] may write to the spare memory behind
      nextQL; MVerHeap.v keeps the memory and C65 proves that this is of no consequence. *)
  Definition evaluateStaticTables (l : Layer F) (q nextQL nextQR : list F) : option (list F) :=
    tables <- GetStaticTable l q ;;
    mapM (fun t => Evaluate t (nextQL ++ nextQR)) tables.

  (** gkr/verifier.go:125-138 evaluateStaticTablesLinCombs *)
  Definition evaluateStaticTablesLinCombs (l : Layer F) (qL qR nextQL nextQR : list F) (lambdaL lambdaR : F)
    : option (list F) :=
    tablesL <- GetStaticTable l qL ;;
    tablesR <- GetStaticTable l qR ;;
    mapM (fun i =>
      tL <- get tablesL i ;;
      left <- Evaluate tL (nextQL ++ nextQR) ;;
      tR <- get tablesR i ;;
      right <- Evaluate tR (nextQL ++ nextQR) ;;
      let right := right * lambdaR in
      let left := left * lambdaL in
      Some (left + right)) (seq 0 (length tablesL)).

  (** The value returned by verifier.go:99 when the combinator check of an intermediate layer
      fails: [true] in the code.  The theorems compare the code with the variant in which it is
      [false]. *)
  Variable onMismatch : bool.

  (** gkr/verifier.go:65-101: the loop for [layer = todo - 1, ..., 0], with the current
      nextQPrime, nextQL, nextQR.  [inl b]: the function returned [b]; [inr _]: the loop ended. *)
  Fixpoint verifyLayers (c : Circuit F) (bN : nat) (pf : Proof) (todo : nat) (nextQPrime nextQL nextQR : list F)
    : option (bool + list F * list F * list F) :=
    match todo with
    | O => Some (inr (nextQPrime, nextQL, nextQR))
    | S layer =>
      cl <- get (ClaimsLeft pf) (layer + 1) ;;
      cr <- get (ClaimsRight pf) (layer + 1) ;;
      let lambdaL := 1 in
      let lambdaR := GetChallenge [cl; cr] in
      let claim := cr * lambdaR in
      let claim := claim + cl in
      let qL := nextQL in
      let qR := nextQR in
      let qPrime := nextQPrime in
      sp <- get (SumcheckProofs pf) layer ;;
      l <- get c layer ;;
      res <- Verify GetChallenge claim sp bN (lBGInputs l) ;;
      match res with
      | Reject => Some (inl false)
      | Accept nextQPrime nextQL nextQR totalClaim =>
        eqEval <- EvalEq qPrime nextQPrime ;;
        vl <- get (ClaimsLeft pf) layer ;;
        vr <- get (ClaimsRight pf) layer ;;
        sts <- evaluateStaticTablesLinCombs l qL qR nextQL nextQR lambdaL lambdaR ;;
        evaluated <- EvaluateCombinator vl vr eqEval (lGates l) sts ;;
        if totalClaim =? evaluated then verifyLayers c bN pf layer nextQPrime nextQL nextQR
        else Some (inl onMismatch)   (* verifier.go:99 *)
      end
    end.

  (** gkr/verifier.go:27-114 Verify, with that value.  NewVerifier (19-24) stores bN and the circuit. *)
  Definition GkrVerifyWith (bN : nat) (c : Circuit F) (pf : Proof) (inputs outputs : list (list F)) : option bool :=
    let nLayers := length c in
    last <- gosub nLayers 1 ;;
    l <- get c last ;;
    let '(qPrime, q) := GetInitialQPrimeAndQ bN (lBGOutputs l) in
    claim <- EvaluateChunked outputs (q ++ qPrime) ;;
    sp <- get (SumcheckProofs pf) last ;;
    res <- Verify GetChallenge claim sp bN (lBGInputs l) ;;
    match res with
    | Reject => Some false
    | Accept nextQPrime nextQL nextQR totalClaim =>
      evalEq <- EvalEq qPrime nextQPrime ;;
      vl <- get (ClaimsLeft pf) last ;;
      vr <- get (ClaimsRight pf) last ;;
      sts <- evaluateStaticTables l q nextQL nextQR ;;
      evaluated <- EvaluateCombinator vl vr evalEq (lGates l) sts ;;
      if totalClaim =? evaluated then
        r <- verifyLayers c bN pf last nextQPrime nextQL nextQR ;;
        match r with
        | inl b => Some b
        | inr (nextQPrime, nextQL, nextQR) =>
          '(actualVL, actualVR) <- EvaluateMixedChunked inputs nextQPrime nextQL nextQR ;;
          vl0 <- get (ClaimsLeft pf) 0 ;;
          vr0 <- get (ClaimsRight pf) 0 ;;
          Some ((actualVL =? vl0) && (actualVR =? vr0))
        end
      else Some false
    end.
End Gkr.

(** gkr/verifier.go:27-114 Verify *)
Definition GkrVerify {F : Field} (GetChallenge : list F -> F) := GkrVerifyWith GetChallenge true.

Arguments Proof : clear implicits.
