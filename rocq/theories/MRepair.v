(** NOT the code of the repository, but that code with six small edits, each named at its definition.  The theorems of
    property C79 say that they are enough for the properties that are false of the code.  Everything that is not
    defined here is the model of the code as it is. *)
From Coq Require Import List Arith ZArith Lia Bool.
From Verif Require Import Field Go MCommon MPoly MCircuit MSumcheck MSumPar MGkr.
Import ListNotations.

Section Repair.
  Context {F : Field}.
  Open Scope F_scope.

  (** circuit/layers.go:130-139 Gates with [gates[wire.Gate.ID()] = wire.Gate] added after line 135. *)
  Definition RGates (wires : list (Wire F)) : list (Gate F) :=
    snd (fold_left (fun '(gates, res) wire =>
      if existsb (id_eqb (gid (wGate wire))) gates then (gates, res)
      else (gid (wGate wire) :: gates, res ++ [wGate wire])) wires ([], [])).

  (** circuit/layers.go:26-33 NewLayer and circuit/circuit.go:24-34 NewCircuit, with that function *)
  Definition RNewLayer (wires : list (Wire F)) : Layer F :=
    MkLayer wires (RGates wires) (BGInputs wires) (BGOutputs wires).
  Definition RNewCircuit (wiring : list (list (Wire F))) : Circuit F := map RNewLayer wiring.

  (** circuit/layers.go:78-96 with [inps[wRN+h]] instead of [inps[wRN*N+h]] in line 91 *)
  Definition reval_chunk (l : Layer F) (inps : list F) : option (list F) :=
    let GInputs := (2 ^ lBGInputs l)%nat in
    let GOutputs := (2 ^ lBGOutputs l)%nat in
    let N := (length inps / GInputs)%nat in
    foldM (fun subRes w =>
      let wON := (wO w * N)%nat in
      let wLN := (wL w * N)%nat in
      let wRN := (wR w * N)%nat in
      forN N (fun subRes h =>
        vL <- get inps (wLN + h) ;;
        vR <- get inps (wRN + h) ;;
        let tmp := geval (wGate w) vL vR in
        x <- get subRes (wON + h) ;;
        set subRes (wON + h) (x + tmp)) subRes) (Wires l) (repeat 0 (N * GOutputs)%nat).

  (** circuit/layers.go:68-102 Evaluate and circuit/circuit.go:37-47 Assign, with that line; the goroutines one after the
      other. *)
  Definition RLayerEvaluate (l : Layer F) (inputs : list (list F)) : option (list (list F)) :=
    mapM (reval_chunk l) inputs.
  Definition RAssign (c : Circuit F) (inputs : list (list F)) : option (Assignment F) :=
    let assignment := repeat [] (length c + 1) in
    assignment <- set assignment 0 inputs ;;
    foldM (fun assignment il =>
      cur <- get assignment (fst il) ;;
      nxt <- RLayerEvaluate (snd il) cur ;;
      set assignment (fst il + 1) nxt) (combine (seq 0 (length c)) c) assignment.

  (** circuit/layers.go:76-99: goroutine [i], with that line *)
  Definition rlayer_exec (l : Layer F) (inputs : list (list F)) (i : nat) (res : list (list F))
    : option (list (list F)) :=
    inps <- get inputs i ;;
    subRes <- reval_chunk l inps ;;
    set res i subRes.

  (** polynomial/chunked.go:19-40 chunkedEvalRecombine with [return inp[0]] in line 39 *)
  Definition rchunkedEvalRecombine (bkts : list (list F)) (qs : list F) : option (list F) :=
    if negb (log2ceil (length bkts) =? length qs)%nat then None else
    st <- foldM recombine_step qs (bkts, []) ;;
    get (fst st) 0.

  (** polynomial/chunked.go:43-47 EvaluateChunked and 50-58 EvaluateMixedChunked, with that function *)
  Definition REvaluateChunked (bkts : list (list F)) (q : list F) : option F :=
    let logNChunks := log2ceil (length bkts) in
    cut <- gosub (length q) logNChunks ;;
    recombined <- rchunkedEvalRecombine bkts (skipn cut q) ;;
    Evaluate recombined (firstn cut q).
  Definition REvaluateMixedChunked (bkts : list (list F)) (hPrime hL hR : list F) : option (F * F) :=
    let logNChunks := log2ceil (length bkts) in
    if (length hPrime <? logNChunks)%nat then None else
    let cut := (length hPrime - logNChunks)%nat in
    recombined <- rchunkedEvalRecombine bkts (skipn cut hPrime) ;;
    EvaluateLeftAndRight recombined (firstn cut hPrime) hL hR.

  Variable GetChallenge : list F -> F.
  Variable mtProve : MTProver F -> option (list (list F) * list F * list F * list F * list F).

  (** gkr/prover.go:124-160 Prove with the point (qPrime, q) passed by the caller instead of line 132. *)
  Definition RGkrProve (qPrime q : list F) (c : Circuit F) (a : Assignment F) (nCore : nat) : option (Proof F) :=
    let nLayers := length c in
    last <- gosub nLayers 1 ;;
    prover <- InitialRoundSumcheckProver c a qPrime q nCore ;;
    '(proof, qPrime, qL, qR, finalClaims) <- mtProve prover ;;
    sps <- set (repeat [] nLayers) last proof ;;
    f0 <- get finalClaims 0 ;;
    f1 <- get finalClaims 1 ;;
    cls <- set (repeat 0 nLayers) last f0 ;;
    crs <- set (repeat 0 nLayers) last f1 ;;
    '(pf, _, _, _) <- foldM (fun st layer => proveLayer GetChallenge mtProve c a nCore layer st)
      (rev (seq 0 last)) (MkProof sps cls crs, qPrime, qL, qR) ;;
    Some pf.

  (** The numbers of coefficients that the sum-check prover gives its polynomials: its degrees (sumcheck/prover.go:40-56)
      plus 1 for the constant term. *)
  Definition roundLengths (l : Layer F) (bN : nat) : list nat :=
    let '(degreeHL, degreeHR, degreeHPrime) :=
      fold_left (fun '(a, b, c) g => (Nat.max a (degHL g), Nat.max b (degHR g), Nat.max c (degHPrime g)))
        (lGates l) (0, 0, 0)%nat in
    repeat (degreeHL + 1 + 1)%nat (lBGInputs l) ++ repeat (degreeHR + 1 + 1)%nat (lBGInputs l) ++
      repeat (degreeHPrime + 1 + 1)%nat bN.

  (** New function, called at the start of Verify: the lists of the proof have one entry per layer and every round
      polynomial the right number of coefficients. *)
  Definition shapeOK (bN : nat) (c : Circuit F) (pf : Proof F) : bool :=
    (length (SumcheckProofs pf) =? length c)%nat && (length (ClaimsLeft pf) =? length c)%nat &&
    (length (ClaimsRight pf) =? length c)%nat &&
    forallb (fun '(l, sp) => if list_eq_dec Nat.eq_dec (map (@length F) sp) (roundLengths l bN) then true else false)
      (combine c (SumcheckProofs pf)).

  (** gkr/verifier.go:27-114 Verify with [shapeOK] called first, the point passed by the caller instead of line 34,
      [false] in line 99 and the functions above. *)
  Definition RGkrVerify (qPrime q : list F) (bN : nat) (c : Circuit F) (pf : Proof F) (inputs outputs : list (list F))
    : option bool :=
    let nLayers := length c in
    if negb (shapeOK bN c pf) then Some false else
    last <- gosub nLayers 1 ;;
    l <- get c last ;;
    claim <- REvaluateChunked outputs (q ++ qPrime) ;;
    sp <- get (SumcheckProofs pf) last ;;
    res <- Verify GetChallenge claim sp bN (lBGInputs l) ;;
    match res with
    | Reject => Some false
    | Accept nextQPrime nextQL nextQR totalClaim =>
      evalEq <- EvalEq qPrime nextQPrime ;;
      vl <- get (ClaimsLeft pf) last ;;
      vr <- get (ClaimsRight pf) last ;;
      sts <- evaluateStaticTables l q nextQL nextQR ;;
      evaluated <- EvaluateCombinator vl vr evalEq (lGates l) sts ;;
      if totalClaim =? evaluated then
        r <- verifyLayers GetChallenge false c bN pf last nextQPrime nextQL nextQR ;;
        match r with
        | inl b => Some b
        | inr (nextQPrime, nextQL, nextQR) =>
          '(actualVL, actualVR) <- REvaluateMixedChunked inputs nextQPrime nextQL nextQR ;;
          vl0 <- get (ClaimsLeft pf) 0 ;;
          vr0 <- get (ClaimsRight pf) 0 ;;
          Some ((actualVL =? vl0) && (actualVR =? vr0))
        end
      else Some false
    end.
End Repair.
