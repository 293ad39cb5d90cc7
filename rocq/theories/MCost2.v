(** Counting model of the GKR verifier: the functions of MGkr.v and what they call, once more, with the number of field
    multiplications that they make.  As in MCost.v additions, subtractions, copies and allocations are not counted; the hash
    behind GetChallenge is counted here. *)
From Coq Require Import List Arith ZArith Lia Bool.
From Verif Require Import Field Go MCommon MPoly MCircuit MSumcheck MGkr MHash MCost.
Import ListNotations.

Section Cost.
  Context {F : Field}.
  Open Scope F_scope.

  (* ---------------------------------------------------------------- hash *)
  (** hash/poseidon.go:129-135 SBoxInplace *)
  Definition WSBox (x : F) : W F :=
    let tmp := x in
    x <~ wmul x x ;;
    x <~ wmul x tmp ;;
    x <~ wmul x x ;;
    x <~ wmul x tmp ;;
    ret x.

  (** hash/mimc.go:30-36 MimcPermutationInPlace *)
  Definition WMimcPermutation (Arks : list F) (state block : F) : W F :=
    forW MimcRounds (fun state i =>
      let state := state + block in
      ark <- get Arks i ;;
      let state := state + ark in
      WSBox state) state.

  (** hash/mimc.go:21-27 MimcUpdateInplace *)
  Definition WMimcUpdate (Arks : list F) (state block : F) : W F :=
    let oldState := state in
    state <~ WMimcPermutation Arks state block ;;
    let state := state + oldState in
    ret (state + block).

  (** hash/mimc.go:11-18 MimcHash, common/challenge.go:10-12 GetChallenge *)
  Definition WMimcHash (Arks input : list F) : W F := foldW (fun state x => WMimcUpdate Arks state x) input 0.

  (* ---------------------------------------------------------------- polynomial *)
  Definition WFoldMany (t : list F) (rs : list F) : W (list F) := foldW WFold rs t.

  (** polynomial/book_keeping.go:85-92 Evaluate *)
  Definition WEvaluate (t : list F) (coordinates : list F) : W F :=
    bkCopy <~ WFoldMany (DeepCopy t) coordinates ;;
    x <- get bkCopy 0 ;;
    ret x.

  (** polynomial/book_keeping.go:98-112 EvaluateLeftAndRight *)
  Definition WEvaluateLeftAndRight (t : list F) (hPrime hL hR : list F) : W (F * F) :=
    let bkCopyLeft := DeepCopy t in
    let bkCopyRight := DeepCopy t in
    let coordinatesLeft := hL ++ hPrime in
    let coordinatesRight := hR ++ hPrime in
    leftEval <~ WEvaluate bkCopyLeft coordinatesLeft ;;
    rightEval <~ WEvaluate bkCopyRight coordinatesRight ;;
    ret (leftEval, rightEval).

  (** polynomial/book_keeping.go:188-214 Mul *)
  Definition WTabMul (dst : list F) (lambda : F) (x : list F) (nCore : nat) : W (list F) :=
    let size := length x in
    chunks <- IntoChunkRanges (Z.of_nat nCore) (Z.of_nat size) ;;
    dst <- resize dst size ;;
    foldW (fun dst chunk =>
      foldW (fun dst i =>
        a <- get x i ;;
        p <~ wmul a lambda ;;
        dst <- set dst i p ;;
        ret dst) (seq (Z.to_nat (fst chunk)) (Z.to_nat (snd chunk) - Z.to_nat (fst chunk))) dst) chunks dst.

  (** polynomial/chunked.go:28-36 *)
  Definition Wrecombine_step (st : list (list F) * list (list F)) (q : F) : W (list (list F) * list (list F)) :=
    let (inp, _) := st in
    let mid := (length inp / 2)%nat in
    res <~ mapW (fun k =>
      hi <- get inp (k + mid) ;;
      lo <- get inp k ;;
      d <- TabSub [] hi lo 1 ;;
      d <~ WTabMul d q d 1 ;;
      s <- TabAdd d d lo ;;
      ret s) (seq 0 mid) ;;
    ret (res, res).

  (** polynomial/chunked.go:19-40 chunkedEvalRecombine *)
  Definition WchunkedEvalRecombine (bkts : list (list F)) (qs : list F) : W (list F) :=
    if negb (log2ceil (length bkts) =? length qs)%nat then None else
    st <~ foldW Wrecombine_step qs (bkts, []) ;;
    r <- get (snd st) 0 ;;
    ret r.

  (** polynomial/chunked.go:43-47 EvaluateChunked *)
  Definition WEvaluateChunked (bkts : list (list F)) (q : list F) : W F :=
    let logNChunks := log2ceil (length bkts) in
    cut <- gosub (length q) logNChunks ;;
    recombined <~ WchunkedEvalRecombine bkts (skipn cut q) ;;
    WEvaluate recombined (firstn cut q).

  (** polynomial/chunked.go:50-58 EvaluateMixedChunked *)
  Definition WEvaluateMixedChunked (bkts : list (list F)) (hPrime hL hR : list F) : W (F * F) :=
    let logNChunks := log2ceil (length bkts) in
    if (length hPrime <? logNChunks)%nat then None else
    let cut := (length hPrime - logNChunks)%nat in
    recombined <~ WchunkedEvalRecombine bkts (skipn cut hPrime) ;;
    WEvaluateLeftAndRight recombined (firstn cut hPrime) hL hR.

  (** polynomial/eq.go:20-33 EvalEq *)
  Definition WEvalEq (qPrime nextQPrime : list F) : W F :=
    forW (length qPrime) (fun res i =>
      q <- get qPrime i ;;
      h <- get nextQPrime i ;;
      nxt <~ wmul q h ;;
      let nxt := nxt + nxt in
      let nxt := nxt + 1 in
      let sum := q + h in
      let nxt := nxt - sum in
      wmul res nxt) 1.

  (* ---------------------------------------------------------------- circuit *)
  (** circuit/gates.go:27-36 EvaluateCombinator *)
  Definition WEvaluateCombinator (vL vR eq : F) (gates : list (WGate F)) (statics : list F) : W F :=
    res <~ foldW (fun res ig =>
      tmp <~ wEval (snd ig) vL vR ;;
      s <- get statics (fst ig) ;;
      tmp <~ wmul s tmp ;;
      ret (res + tmp)) (combine (seq 0 (length gates)) gates) 0 ;;
    wmul res eq.

  (** circuit/layers.go:37-64 GetStaticTable: filling a table takes additions only *)
  Definition WGetStaticTable (l : Layer F) (q : list F) : W (list (list F)) :=
    mapW (fun gate => tab <- wiring_table l gate ;; WFoldMany tab q) (lGates l).

  (* ---------------------------------------------------------------- sum-check and GKR *)
  (** The challenges and what they cost. *)
  Variable GetChallenge : list F -> W F.

  (** sumcheck/verifier.go:14-44 Verify *)
  Fixpoint Wverify_rounds (expectedValue : F) (proof : list (list F)) (challenges : list F) : W (option (list F * F)) :=
    match proof with
    | [] => ret (Some (challenges, expectedValue))
    | c :: proof' =>
      actualValue <~ WEvaluatePolynomial c 0 ;;
      evalAtOne <~ WEvaluatePolynomial c 1 ;;
      let actualValue := actualValue + evalAtOne in
      if expectedValue =? actualValue then
        r <~ GetChallenge c ;;
        e <~ WEvaluatePolynomial c r ;;
        Wverify_rounds e proof' (challenges ++ [r])
      else ret None
    end.
  Definition WVerifyHashing (claim : F) (proof : list (list F)) (bN bG : nat) : W (VerifyResult F) :=
    res <~ Wverify_rounds claim proof [] ;;
    match res with
    | None => ret Reject
    | Some (challenges, expectedValue) =>
      qL <- slice challenges 0 bG ;;
      qR <- slice challenges bG (2 * bG) ;;
      qPrime <- slice challenges (2 * bG) (length challenges) ;;
      ret (Accept qPrime qL qR expectedValue)
    end.

  (** gkr/verifier.go:116-123 evaluateStaticTables *)
  Definition WevaluateStaticTables (l : Layer F) (q nextQL nextQR : list F) : W (list F) :=
    tables <~ WGetStaticTable l q ;;
    mapW (fun t => WEvaluate t (nextQL ++ nextQR)) tables.

  (** gkr/verifier.go:125-138 evaluateStaticTablesLinCombs *)
  Definition WevaluateStaticTablesLinCombs (l : Layer F) (qL qR nextQL nextQR : list F) (lambdaL lambdaR : F) : W (list F) :=
    tablesL <~ WGetStaticTable l qL ;;
    tablesR <~ WGetStaticTable l qR ;;
    mapW (fun i =>
      tL <- get tablesL i ;;
      left <~ WEvaluate tL (nextQL ++ nextQR) ;;
      tR <- get tablesR i ;;
      right <~ WEvaluate tR (nextQL ++ nextQR) ;;
      right <~ wmul right lambdaR ;;
      left <~ wmul left lambdaL ;;
      ret (left + right)) (seq 0 (length tablesL)).

  (** The counting gates of every layer. *)
  Variable gates : list (list (WGate F)).

  (** What verifier.go:99 returns; see MGkr.v. *)
  Variable onMismatch : bool.

  (** gkr/verifier.go:65-101 *)
  Fixpoint WverifyLayers (c : Circuit F) (bN : nat) (pf : Proof F) (todo : nat) (nextQPrime nextQL nextQR : list F)
    : W (bool + list F * list F * list F) :=
    match todo with
    | O => ret (inr (nextQPrime, nextQL, nextQR))
    | S layer =>
      cl <- get (ClaimsLeft pf) (layer + 1) ;;
      cr <- get (ClaimsRight pf) (layer + 1) ;;
      let lambdaL := 1 in
      lambdaR <~ GetChallenge [cl; cr] ;;
      claim <~ wmul cr lambdaR ;;
      let claim := claim + cl in
      let qL := nextQL in
      let qR := nextQR in
      let qPrime := nextQPrime in
      sp <- get (SumcheckProofs pf) layer ;;
      l <- get c layer ;;
      res <~ WVerifyHashing claim sp bN (lBGInputs l) ;;
      match res with
      | Reject => ret (inl false)
      | Accept nextQPrime nextQL nextQR totalClaim =>
        eqEval <~ WEvalEq qPrime nextQPrime ;;
        vl <- get (ClaimsLeft pf) layer ;;
        vr <- get (ClaimsRight pf) layer ;;
        sts <~ WevaluateStaticTablesLinCombs l qL qR nextQL nextQR lambdaL lambdaR ;;
        evaluated <~ WEvaluateCombinator vl vr eqEval (nth layer gates []) sts ;;
        if totalClaim =? evaluated then WverifyLayers c bN pf layer nextQPrime nextQL nextQR
        else ret (inl onMismatch)
      end
    end.

  (** gkr/verifier.go:27-114 Verify.  The first point (prover.go, GetInitialQPrimeAndQ) is small numbers, no products. *)
  Definition WGkrVerifyWith (bN : nat) (c : Circuit F) (pf : Proof F) (inputs outputs : list (list F)) : W bool :=
    let nLayers := length c in
    last <- gosub nLayers 1 ;;
    l <- get c last ;;
    let '(qPrime, q) := GetInitialQPrimeAndQ bN (lBGOutputs l) in
    claim <~ WEvaluateChunked outputs (q ++ qPrime) ;;
    sp <- get (SumcheckProofs pf) last ;;
    res <~ WVerifyHashing claim sp bN (lBGInputs l) ;;
    match res with
    | Reject => ret false
    | Accept nextQPrime nextQL nextQR totalClaim =>
      evalEq <~ WEvalEq qPrime nextQPrime ;;
      vl <- get (ClaimsLeft pf) last ;;
      vr <- get (ClaimsRight pf) last ;;
      sts <~ WevaluateStaticTables l q nextQL nextQR ;;
      evaluated <~ WEvaluateCombinator vl vr evalEq (nth last gates []) sts ;;
      if totalClaim =? evaluated then
        r <~ WverifyLayers c bN pf last nextQPrime nextQL nextQR ;;
        match r with
        | inl b => ret b
        | inr (nextQPrime, nextQL, nextQR) =>
          '(actualVL, actualVR) <~ WEvaluateMixedChunked inputs nextQPrime nextQL nextQR ;;
          vl0 <- get (ClaimsLeft pf) 0 ;;
          vr0 <- get (ClaimsRight pf) 0 ;;
          ret ((actualVL =? vl0) && (actualVR =? vr0))
        end
      else ret false
    end.
End Cost.
