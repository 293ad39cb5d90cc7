(** Memory-level model of sumcheck/verifier.go and gkr/verifier.go: proof, inputs, outputs, challenges and static tables are
    slices of one memory, and [append] has Go's meaning: it writes into the spare capacity of its first argument when there
    is enough of it.  The circuit is kept by value, as are the coordinates once they are handed to Evaluate, which only
    reads them. *)
From Coq Require Import List Arith ZArith Lia Bool.
From Verif Require Import Field Go MCommon MPoly MCircuit MSumcheck MGkr MHeap SpecHeap MGkrHeap.
Import ListNotations.

Section Ver.
  Context {F : Field}.
  Open Scope F_scope.
  Variable GetChallenge : list F -> F.
  Notation Mem := (list F).

  (** The capacity chosen by the Go runtime when append has to allocate, from the old capacity and the length needed;
      anything, but made at least the length needed where it is used. *)
  Variable grow : nat -> nat -> nat.

  (** [vs] written at address [a] and the following ones *)
  Fixpoint hwrite (m : Mem) (a : nat) (vs : list F) : option Mem :=
    match vs with
    | [] => Some m
    | v :: vs => m <- set m a v ;; hwrite m (S a) vs
    end.

  (** [append(s, src...)]: the values of src are read before anything is written *)
  Definition happend (m : Mem) (s src : Slice) : option (Mem * Slice) :=
    let n := (slen s + slen src)%nat in
    let vs := tab m src in
    if (n <=? scap s)%nat then
      m <- hwrite m (base s + slen s) vs ;;
      Some (m, MkSlice (base s) n (scap s))
    else
      let cap := Nat.max n (grow (scap s) n) in
      Some (m ++ (tab m s ++ vs) ++ repeat 0 (cap - n), MkSlice (length m) n cap).

  (** What Verify of package sumcheck returns: [false, nil, ...] or [true, qPrime, qL, qR, finalClaim] *)
  Inductive HVerifyResult := HReject | HAccept (qPrime qL qR : Slice) (finalClaim : F).

  (** sumcheck/verifier.go:21-36: the loop from round [i] on; [Some (m, None)] is the early [return false] *)
  Fixpoint hverify_loop (m : Mem) (expectedValue : F) (proof : list Slice) (challenges : Slice) (i : nat)
    : option (Mem * option F) :=
    match proof with
    | [] => Some (m, Some expectedValue)
    | c :: proof' =>
      actualValue <- EvaluatePolynomial (tab m c) 0 ;;
      evalAtOne <- EvaluatePolynomial (tab m c) 1 ;;
      let actualValue := actualValue + evalAtOne in
      if expectedValue =? actualValue then
        let r := GetChallenge (tab m c) in
        m <- hset m challenges i r ;;
        e <- EvaluatePolynomial (tab m c) r ;;
        hverify_loop m e proof' challenges (S i)
      else Some (m, None)
    end.

  (** sumcheck/verifier.go:15-44 Verify *)
  Definition HSumVerify (m : Mem) (claim : F) (proof : list Slice) (bG : nat) : option (Mem * HVerifyResult) :=
    let (m, challenges) := halloc m (length proof) in
    '(m, res) <- hverify_loop m claim proof challenges 0 ;;
    match res with
    | None => Some (m, HReject)
    | Some expectedValue =>
      cL <- hslice challenges 0 bG ;;
      '(m, qL) <- happend m nilSlice cL ;;
      cR <- hslice challenges bG (2 * bG) ;;
      '(m, qR) <- happend m nilSlice cR ;;
      cP <- hslice challenges (2 * bG) (slen challenges) ;;
      '(m, qPrime) <- happend m nilSlice cP ;;
      Some (m, HAccept qPrime qL qR expectedValue)
    end.

  (** [t.Evaluate(append(nextQL, nextQR...))] *)
  Definition HEvaluateAt (m : Mem) (t nextQL nextQR : Slice) : option (Mem * F) :=
    '(m, coords) <- happend m nextQL nextQR ;;
    HEvaluate m t (tab m coords).

  (** gkr/verifier.go:116-123 evaluateStaticTables; the tables are in new memory, see hmake *)
  Definition hevaluateStaticTables (m : Mem) (l : Layer F) (q nextQL nextQR : Slice) : option (Mem * list F) :=
    tables <- GetStaticTable l (tab m q) ;;
    let (m, tables) := hmake m tables in
    foldM (fun '(m, evals) t => '(m, v) <- HEvaluateAt m t nextQL nextQR ;; Some (m, evals ++ [v])) tables (m, []).

  (** gkr/verifier.go:125-138 evaluateStaticTablesLinCombs *)
  Definition hevaluateStaticTablesLinCombs (m : Mem) (l : Layer F) (qL qR nextQL nextQR : Slice) (lambdaL lambdaR : F)
    : option (Mem * list F) :=
    tablesL <- GetStaticTable l (tab m qL) ;;
    let (m, tablesL) := hmake m tablesL in
    tablesR <- GetStaticTable l (tab m qR) ;;
    let (m, tablesR) := hmake m tablesR in
    foldM (fun '(m, evals) i =>
      tL <- get tablesL i ;;
      '(m, lv) <- HEvaluateAt m tL nextQL nextQR ;;
      tR <- get tablesR i ;;
      '(m, rv) <- HEvaluateAt m tR nextQL nextQR ;;
      let rv := rv * lambdaR in
      let lv := lv * lambdaL in
      Some (m, evals ++ [lv + rv])) (seq 0 (length tablesL)) (m, []).

  (** gkr/prover.go:20-24 Proof *)
  Record HProof := MkHProof { hSumcheckProofs : list (list Slice); hClaimsLeft : Slice; hClaimsRight : Slice }.
  Definition viewProof (m : Mem) (pf : HProof) : Proof F :=
    MkProof (map (map (tab m)) (hSumcheckProofs pf)) (tab m (hClaimsLeft pf)) (tab m (hClaimsRight pf)).

  (** gkr/verifier.go:65-101, see verifyLayers of MGkr.v *)
  Fixpoint hverifyLayers (m : Mem) (c : Circuit F) (pf : HProof) (todo : nat) (nextQPrime nextQL nextQR : Slice)
    : option (Mem * (bool + Slice * Slice * Slice)) :=
    match todo with
    | O => Some (m, inr (nextQPrime, nextQL, nextQR))
    | S layer =>
      cl <- hget m (hClaimsLeft pf) (layer + 1) ;;
      cr <- hget m (hClaimsRight pf) (layer + 1) ;;
      let lambdaL := 1 in
      let lambdaR := GetChallenge [cl; cr] in
      let claim := cr * lambdaR in
      let claim := claim + cl in
      let qL := nextQL in
      let qR := nextQR in
      let qPrime := nextQPrime in
      sp <- get (hSumcheckProofs pf) layer ;;
      l <- get c layer ;;
      '(m, res) <- HSumVerify m claim sp (lBGInputs l) ;;
      match res with
      | HReject => Some (m, inl false)
      | HAccept nextQPrime nextQL nextQR totalClaim =>
        eqEval <- EvalEq (tab m qPrime) (tab m nextQPrime) ;;
        vl <- hget m (hClaimsLeft pf) layer ;;
        vr <- hget m (hClaimsRight pf) layer ;;
        '(m, sts) <- hevaluateStaticTablesLinCombs m l qL qR nextQL nextQR lambdaL lambdaR ;;
        evaluated <- EvaluateCombinator vl vr eqEval (lGates l) sts ;;
        if totalClaim =? evaluated then hverifyLayers m c pf layer nextQPrime nextQL nextQR
        else Some (m, inl true)
      end
    end.

  (** gkr/verifier.go:27-114 Verify *)
  Definition HGkrVerify (m : Mem) (bN : nat) (c : Circuit F) (pf : HProof) (inputs outputs : list Slice) : option (Mem * bool) :=
    let nLayers := length c in
    last <- gosub nLayers 1 ;;
    l <- get c last ;;
    let '(qPrime, q) := GetInitialQPrimeAndQ bN (lBGOutputs l) in
    let (m, qs) := hmake m [qPrime; q] in
    qPrime <- get qs 0 ;;
    q <- get qs 1 ;;
    '(m, coords) <- happend m nilSlice q ;;
    '(m, coords) <- happend m coords qPrime ;;
    '(m, claim) <- HEvaluateChunked m outputs (tab m coords) ;;
    sp <- get (hSumcheckProofs pf) last ;;
    '(m, res) <- HSumVerify m claim sp (lBGInputs l) ;;
    match res with
    | HReject => Some (m, false)
    | HAccept nextQPrime nextQL nextQR totalClaim =>
      evalEq <- EvalEq (tab m qPrime) (tab m nextQPrime) ;;
      vl <- hget m (hClaimsLeft pf) last ;;
      vr <- hget m (hClaimsRight pf) last ;;
      '(m, sts) <- hevaluateStaticTables m l q nextQL nextQR ;;
      evaluated <- EvaluateCombinator vl vr evalEq (lGates l) sts ;;
      if totalClaim =? evaluated then
        '(m, r) <- hverifyLayers m c pf last nextQPrime nextQL nextQR ;;
        match r with
        | inl b => Some (m, b)
        | inr (nextQPrime, nextQL, nextQR) =>
          '(m, (actualVL, actualVR)) <- HEvaluateMixedChunked m inputs (tab m nextQPrime) (tab m nextQL) (tab m nextQR) ;;
          vl0 <- hget m (hClaimsLeft pf) 0 ;;
          vr0 <- hget m (hClaimsRight pf) 0 ;;
          Some (m, (actualVL =? vl0) && (actualVR =? vr0))
        end
      else Some (m, false)
    end.
End Ver.

Arguments HVerifyResult : clear implicits.
