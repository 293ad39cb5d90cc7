(** Model of the tests of the native packages: polynomial/*_test.go, sumcheck/prover_test.go, gkr/gkr_test.go and
    examples/mimc_test.go.  A test is a function of its sizes, constants and random values: [None] means that it panics,
    [Some b] that it ends and that all its assertions hold iff [b] is true.  [TestX_with f] is the test with [f] in place of
    the function under test, [TestX] the test of the repository.  testify's assert.Equal is equality: elements
    are kept reduced, so equal representations are equal elements.  Integers do not wrap around. *)
From Coq Require Import List Arith ZArith NArith Lia Bool.
From Verif Require Import Field FrPrime Fr Go MCommon MPoly MCircuit MSumcheck MSumPar MGkr MHash MTesting.
Import ListNotations.

Section Tests.
  Context {F : Field}.
  Open Scope F_scope.

  (** assert.Equal of two lists *)
  Fixpoint eqList {A} (eqA : A -> A -> bool) (a b : list A) : bool :=
    match a, b with
    | [], [] => true
    | x :: a, y :: b => eqA x y && eqList eqA a b
    | _, _ => false
    end.
  Definition eqTable : list F -> list F -> bool := eqList feqb.
  Definition eqTables : list (list F) -> list (list F) -> bool := eqList eqTable.
  Definition eqValues : list (list (list F)) -> list (list (list F)) -> bool := eqList eqTables.

  (** assertions in a loop *)
  Definition checkAll {A} (f : A -> option bool) (l : list A) : option bool :=
    foldM (fun ok x => b <- f x ;; Some (ok && b)) l true.

  (** polynomial/book_keeping_test.go:11-35 TestLinearCombinationOfBookKeepingTables, with tables of [n] entries instead of
      2 and any [i0], [i1] *)
  Definition TestLinearCombination (n i0 i1 : nat) : option bool :=
    let table0 := map (fun i => fnat i) (seq 0 n) in
    let table1 := map (fun i => fnat (i * i + 3 * i + 2)) (seq 0 n) in
    let correct := map (fun i => fnat (i0 * i + i1 * (i * i + 3 * i + 2))) (seq 0 n) in
    ' (_, t) <- LinearCombination table0 table1 (fnat i0) (fnat i1) ;;
    Some (eqTable correct t).

  (** polynomial/book_keeping_test.go:37-57 TestFold, with 2m entries instead of 4, folded at [r] instead of 5; the expected
      values at 0 and 1 are [e0] and [e1] *)
  Definition TestFold_with (fold : list F -> F -> option (list F)) (m : nat) (r e0 e1 : F) : option bool :=
    let table := map (fun i => fnat i) (seq 0 (2 * m)) in
    bkt <- fold table r ;;
    b0 <- get bkt 0 ;;
    b1 <- get bkt 1 ;;
    Some ((e0 =? b0) && (e1 =? b1)).
  Definition TestFold := TestFold_with Fold.

  (** polynomial/book_keeping_test.go:59-75 TestFuncEval; expected value [e] at 0 and 1 *)
  Definition TestFuncEval_with (functionEvals : list F -> option (list F)) (m : nat) (e : F) : option bool :=
    let table := map (fun i => fnat i) (seq 0 (2 * m)) in
    evals <- functionEvals table ;;
    e0 <- get evals 0 ;;
    e1 <- get evals 1 ;;
    Some ((e =? e0) && (e =? e1)).
  Definition TestFuncEval := TestFuncEval_with FunctionEvals.

  (** polynomial/chunk_test.go:34-75: the loop body of TestChunked.  The random values are arguments: [hs] the evaluation
      points of lines 57-62, [mixed] the triples (hCommon, hL, hR) of lines 65-73 (nEvals = 10 of each in the test). *)
  Definition TestChunked_with (getChunked : list F -> nat -> nat -> option (list (list F)))
      (getFolded : list F -> option (list F)) (evaluate : list F -> list F -> option F)
      (evaluateChunked : list (list F) -> list F -> option F)
      (evaluateMixed : list (list F) -> list F -> list F -> list F -> option (F * F))
      (evaluateLR : list F -> list F -> list F -> list F -> option (F * F)) (logSize logNChunks : nat) (qPrime : list F) (hs : list (list F))
      (mixed : list (list F * list F * list F)) : option bool :=
    let size := (2 ^ logSize)%nat in
    let nChunks := (2 ^ logNChunks)%nat in
    cut <- gosub logSize logNChunks ;;
    let chunkSize := (2 ^ cut)%nat in
    eqChunked <- getChunked qPrime nChunks 1%nat ;;
    eq <- getFolded qPrime ;;
    (* 44-46 *)
    a <- get eq 0 ;; c <- get eqChunked 0 ;; a' <- get c 0 ;;
    b <- get eq (size - 1) ;; d <- get eqChunked (nChunks - 1) ;; b' <- get d (chunkSize - 1) ;;
    (* 48-53 *)
    let u := map (fun x => N.to_nat (x mod N.of_nat chunkSize)) [1897979; 987950; 4547687]%N in
    let s := map (fun x => N.to_nat (x mod N.of_nat nChunks)) [5648709; 907532; 367570]%N in
    ok1 <- checkAll (fun k =>
      uk <- get u k ;; sk <- get s k ;;
      let id := (uk * nChunks + sk)%nat in
      x <- get eq id ;; t <- get eqChunked sk ;; y <- get t uk ;;
      Some (x =? y)) (seq 0 (length u)) ;;
    (* 56-61 *)
    ok2 <- checkAll (fun hPrime =>
      res <- evaluate eq hPrime ;;
      resChunked <- evaluateChunked eqChunked hPrime ;;
      Some (res =? resChunked)) hs ;;
    (* 64-72 *)
    ok3 <- checkAll (fun '(hCommon, hL, hR) =>
      ' (resChunkedA, resChunkedB) <- evaluateMixed eqChunked hCommon hL hR ;;
      ' (resA, resB) <- evaluateLR eq hCommon hL hR ;;
      Some ((resA =? resChunkedA) && (resB =? resChunkedB))) mixed ;;
    Some ((a =? a') && (b =? b') && ok1 && ok2 && ok3).
  Definition TestChunked :=
    TestChunked_with GetChunkedEqTable GetFoldedEqTable Evaluate EvaluateChunked EvaluateMixedChunked EvaluateLeftAndRight.

  (** polynomial/eq_test.go:75-127 correctFoldedEqTable *)
  Definition correctFoldedEqTable (r s t u : F) : list F :=
    let R := 1 - r in let S := 1 - s in let T := 1 - t in let U := 1 - u in
    let RS := R * S in let Rs := R * s in let rS := r * S in let rs := r * s in
    let TU := T * U in let Tu := T * u in let tU := t * U in let tu := t * u in
    [RS * TU; RS * Tu; RS * tU; RS * tu; Rs * TU; Rs * Tu; Rs * tU; Rs * tu;
     rS * TU; rS * Tu; rS * tU; rS * tu; rs * TU; rs * Tu; rs * tU; rs * tu].

  (** polynomial/eq_test.go:129-150 TestGetFoldedEqTable *)
  Definition TestGetFoldedEqTable (a b c d : F) : option bool :=
    let realResult := correctFoldedEqTable a b c d in
    computedResult <- GetFoldedEqTable [a; b; c; d] ;;
    Some (eqTable realResult computedResult).

  (** polynomial/lagrange_test.go:10-29 TestLagrangeCoefficients *)
  Definition TestLagrangeCoefficients (domain value : nat) : option bool :=
    rows <- GetLagrangePolynomial (F:=F) domain ;;
    lagrangePolynomial <- get rows value ;;
    checkAll (fun i =>
      y <- EvaluatePolynomial lagrangePolynomial (fnat i) ;;
      Some (if (i =? value)%nat then y =? 1 else y =? 0)) (seq 0 domain).

  (** sumcheck/prover_test.go:62-108 TestSumcheck, for any tables and sizes (the test has bN = bG = 1 and fixed tables) *)
  Definition TestSumcheck_with (getClaim : Prover F -> option F)
      (prove : Prover F -> option (list (list F) * list F * list F * list F * list F))
      (verify : F -> list (list F) -> nat -> nat -> option (VerifyResult F)) (evaluate : list F -> list F -> option F)
      (evaluateLR : list F -> list F -> list F -> list F -> option (F * F)) (bN bG : nat) (v eQ add : list F) : option bool :=
    let prover := NewSingleThreadedProver v (DeepCopy v) eQ [AddGate] [add] in
    claim <- getClaim prover ;;
    ' (proof, expectedQPrime, expectedQL, expectedQR, subClaims) <- prove prover ;;
    res <- verify claim proof bN bG ;;
    let '(valid, qPrime, qL, qR, finalClaim) :=
      match res with Reject => (false, [], [], [], 0) | Accept qPrime qL qR finalClaim => (true, qPrime, qL, qR, finalClaim) end in
    (* 90-92 compare the only entries *)
    let ok1 := eqTable expectedQPrime qPrime && eqTable expectedQL qL && eqTable expectedQR qR in
    ' (finalVL, finalVR) <- evaluateLR v qPrime qL qR ;;
    finalEq <- evaluate eQ qPrime ;;
    finalAdd <- evaluate add (qL ++ qR) ;;
    s0 <- get subClaims 0 ;; s1 <- get subClaims 1 ;; s2 <- get subClaims 2 ;; s3 <- get subClaims 3 ;;
    let ok2 := (finalVL =? s0) && (finalVR =? s1) && (finalEq =? s2) && (finalAdd =? s3) in
    let actualFinalClaim := geval AddGate finalVL finalVR in
    let actualFinalClaim := actualFinalClaim * finalAdd in
    let actualFinalClaim := actualFinalClaim * finalEq in
    Some (valid && ok1 && ok2 && (finalClaim =? actualFinalClaim)).
  Definition TestSumcheck (ch : list F -> F) :=
    TestSumcheck_with GetClaim (Prove ch) (Verify ch) Evaluate EvaluateLeftAndRight.

  (** sumcheck/prover_test.go:14-60 TestGetEvals *)
  Definition TestGetEvals_with (getClaim : Prover F -> option F)
      (getEvalsOnHL getEvalsOnHR getEvalsOnHPrime : Prover F -> option (list F))
      (foldHL foldHR : Prover F -> F -> option (Prover F)) : option bool :=
    let zero : F := fnat 0 in let one := fnat 1 in let two := fnat 2 in let three := fnat 3 in let four := fnat 4 in
    let twelve := fnat 12 in let minusEight := - fnat 8 in
    let v := [zero; one; two; three] in
    let add := [zero; zero; one; zero] in
    let eQ := [zero; one] in
    let prover := NewSingleThreadedProver v (DeepCopy v) eQ [AddGate] [add] in
    claim <- getClaim prover ;;
    evals <- getEvalsOnHL prover ;;
    a0 <- get evals 0 ;; a1 <- get evals 1 ;; a2 <- get evals 2 ;;
    prover <- foldHL prover one ;;
    evals <- getEvalsOnHR prover ;;
    b0 <- get evals 0 ;; b1 <- get evals 1 ;; b2 <- get evals 2 ;;
    prover <- foldHR prover zero ;;
    evals <- getEvalsOnHPrime prover ;;
    c0 <- get evals 0 ;; c1 <- get evals 1 ;; c2 <- get evals 2 ;;
    Some ((claim =? four) && (a0 =? zero) && (a1 =? four) && (a2 =? twelve) &&
          (b0 =? four) && (b1 =? zero) && (b2 =? minusEight) &&
          (c0 =? zero) && (c1 =? four) && (c2 =? twelve)).
  Definition TestGetEvals := TestGetEvals_with GetClaim GetEvalsOnHL GetEvalsOnHR GetEvalsOnHPrime FoldHL FoldHR.

  (** What a call of MultiThreadedProver.Prove(nCore) returns, see MGkr.v; here for every nCore. *)
  Variable GetChallenge : list F -> F.
  Variable mtProve : nat -> MTProver F -> option (list (list F) * list F * list F * list F * list F).
  (** What a call of MultiThreadedProver.GetClaim(nCore) returns *)
  Variable mtClaim : nat -> MTProver F -> option F.

  (** gkr/gkr_test.go:120-133 the circuit of TestGKR *)
  Definition testGKRCircuit : Circuit F := NewCircuit
    [[MkWire 0 1 0 AddGate; MkWire 0 1 1 MulGate]; [MkWire 0 1 0 AddGate; MkWire 0 1 1 MulGate]].

  (** gkr/gkr_test.go:58-70 the circuit of TestMultiBGs *)
  Definition testMultiBGsCircuit : Circuit F := NewCircuit
    [[MkWire 0 1 0 AddGate; MkWire 0 1 1 MulGate]; [MkWire 0 1 0 AddGate]].

  (** gkr/gkr_test.go:77-92 and 140-176: assign, prove, verify, compare the assignment with the expected one.  Assign and
      Verify are called with 2 cores and bN = 1, Prove with 1 core; the number of cores does not matter for Assign (C25). *)
  Definition testGkr_with (assign : Circuit F -> list (list F) -> option (Assignment F))
      (prove : Circuit F -> Assignment F -> nat -> option (Proof F))
      (verify : nat -> Circuit F -> Proof F -> list (list F) -> list (list F) -> option bool) (c : Circuit F) (bN : nat) (inputs : list (list F)) (expectedValues : list (list (list F))) : option bool :=
    a <- assign c inputs ;;
    outputs <- get a 2 ;;
    proof <- prove c a 1%nat ;;
    validity <- verify bN c proof inputs outputs ;;
    Some (validity && eqValues expectedValues a).
  Definition testGkr := testGkr_with Assign (GkrProve GetChallenge (mtProve 1)) (GkrVerify GetChallenge).
  Definition TestGKR := testGkr testGKRCircuit.
  Definition TestMultiBGs := testGkr testMultiBGsCircuit.

  (** examples/mimc_test.go:18-26 randomInputs; the arrays are consecutive draws from [rnd], see MAux.v *)
  Definition randomInputs (rnd : nat -> F) (nChunks bN : nat) : option (list (list F)) :=
    let size := (2 * 2 ^ bN)%nat in
    chunkSize <- godiv size nChunks ;;
    Some (map (fun i => map (fun j => rnd (i * chunkSize + j)%nat) (seq 0 chunkSize)) (seq 0 nChunks)).

  Variable Arks : list F.

  (** examples/mimc_test.go:28-103 TestMimc (bN = 3, nChunks = 2 in the test) *)
  Definition TestMimc_with (assign : Circuit F -> list (list F) -> option (Assignment F))
      (permutation : F -> F -> option F) (combinator : F -> F -> F -> list (Gate F) -> list F -> option F)
      (intermediate : Circuit F -> Assignment F -> nat -> list F -> list F -> list F -> F -> F -> nat -> option (MTProver F))
      (initial : Circuit F -> Assignment F -> list F -> list F -> nat -> option (MTProver F))
      (getClaim : MTProver F -> option F)
      (prove : Circuit F -> Assignment F -> nat -> option (Proof F))
      (verify : nat -> Circuit F -> Proof F -> list (list F) -> list (list F) -> option bool) (bN nChunks : nat) (inputs : list (list F)) : option bool :=
    mimcCircuit <- CreateMimcCircuit Arks ;;
    inputChunkSize <- godiv (2 * 2 ^ bN) nChunks ;;
    assignment <- assign mimcCircuit inputs ;;
    outputs <- get assignment 91 ;;
    (* 50-60 *)
    inp <- get inputs 0 ;;
    x <- get inp 0 ;;
    key <- get inp (inputChunkSize / 2) ;;
    let expectedHash := x - key in
    expectedHash <- permutation expectedHash key ;;
    let expectedHash := expectedHash + key in
    out <- get outputs 0 ;;
    o <- get out 0 ;;
    let ok1 := (expectedHash =? o) in
    (* 62-77 *)
    layer1 <- get assignment 1 ;;
    l0 <- get mimcCircuit 0 ;;
    let gates := lGates l0 in
    from0 <- combinator key x 1 gates [1; 0] ;;
    from1 <- combinator key x 1 gates [0; 1] ;;
    row <- get layer1 0 ;;
    r0 <- get row 0 ;;
    r1 <- get row (inputChunkSize / 2) ;;
    let ok2 := (r0 =? from0) && (r1 =? from1) in
    (* 79-91 *)
    let qPrime := repeat 0 bN in
    sumcheckPQ0 <- intermediate mimcCircuit assignment 0%nat qPrime [0] [0] 1 0 1%nat ;;
    sumcheckPQ1 <- intermediate mimcCircuit assignment 0%nat qPrime [1] [0] 1 0 1%nat ;;
    claimQ0 <- getClaim sumcheckPQ0 ;;
    claimQ1 <- getClaim sumcheckPQ1 ;;
    let ok3 := (r0 =? claimQ0) && (r1 =? claimQ1) in
    (* 93-98 *)
    sumcheckPQInit <- initial mimcCircuit assignment qPrime [] 1%nat ;;
    claimQInit <- getClaim sumcheckPQInit ;;
    let ok4 := (o =? claimQInit) in
    (* 100-106 *)
    proof <- prove mimcCircuit assignment 1%nat ;;
    valid <- verify bN mimcCircuit proof inputs outputs ;;
    Some (ok1 && ok2 && ok3 && ok4 && valid).
  Definition TestMimc := TestMimc_with Assign (MimcPermutation Arks) EvaluateCombinator IntermediateRoundsSumcheckProver
    InitialRoundSumcheckProver (mtClaim 1) (GkrProve GetChallenge (mtProve 1)) (GkrVerify GetChallenge).

  (** examples/mimc_test.go:107-123 benchmarkMIMCCircuit, one iteration: the proof it stores *)
  Definition benchmarkMIMCCircuit (rnd : nat -> F) (bN nCore nChunks : nat) : option (Proof F) :=
    mimcCircuit <- CreateMimcCircuit Arks ;;
    inputs <- randomInputs rnd nChunks bN ;;
    assignment <- Assign mimcCircuit inputs ;;
    GkrProve GetChallenge (mtProve nCore) mimcCircuit assignment nCore.
End Tests.

(** sumcheck/prover_test.go:110-117 TestBenchmarkSetup ([bN] = 1 in the test) *)
Definition TestBenchmarkSetup_with (getClaim : Prover Fr -> option Fr)
    (prove : Prover Fr -> option (list (list Fr) * list Fr * list Fr * list Fr * list Fr))
    (verify : Fr -> list (list Fr) -> nat -> nat -> option (VerifyResult Fr)) (bN : nat) : option bool :=
  prover <- InitializeProverForTests bN ;;
  claim <- getClaim prover ;;
  ' (proof, _, _, _, _) <- prove prover ;;
  res <- verify claim proof 1%nat 1%nat ;;
  Some (match res with Accept _ _ _ _ => true | Reject => false end).
Definition TestBenchmarkSetup (ch : list Fr -> Fr) := TestBenchmarkSetup_with GetClaim (Prove ch) (Verify ch).

(** common/math_test.go:9-18 TestLog2 *)
Definition TestLog2_with (log2Floor log2Ceil : Z -> Z) : bool :=
  let x := [1; 2; 3; 4; 5; 6; 7; 8; 9]%Z in
  let floor := [0; 1; 1; 2; 2; 2; 2; 3; 3]%Z in
  let ceil := [0; 1; 2; 2; 3; 3; 3; 3; 4]%Z in
  eqList Z.eqb floor (map log2Floor x) && eqList Z.eqb ceil (map log2Ceil x).
Definition TestLog2 : bool := TestLog2_with Log2Floor Log2Ceil.
