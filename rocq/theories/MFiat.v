(** NOT the code of the repository: the repaired program of MRepair.v with one more edit, for property C80.  In the
    code every challenge is the hash of one message (sumcheck/verifier.go:31, gkr/verifier.go:71); here it is
    derived from the inputs, the outputs, all the messages up to that point and the challenges before it. *)
From Coq Require Import List Arith Lia Bool.
From Verif Require Import Field Go MCommon MPoly MCircuit MSumcheck MSumPar MGkr MRepair SpecInter.
Import ListNotations.

Section Fiat.
  Context {F : Field}.
  Open Scope F_scope.

  (** ** The verifier, on a list of challenges *)

  (** sumcheck/verifier.go:21-35: the loop, with the next of the challenges [rs] instead of the hash of line 31; also
      returns the challenges that are left. *)
  Fixpoint iverify_loop (expectedValue : F) (proof : list (list F)) (rs challenges : list F)
    : option (option (list F * F * list F)) :=
    match proof with
    | [] => Some (Some (challenges, expectedValue, rs))
    | c :: proof' =>
      actualValue <- EvaluatePolynomial c 0 ;;
      evalAtOne <- EvaluatePolynomial c 1 ;;
      let actualValue := actualValue + evalAtOne in
      if expectedValue =? actualValue then
        r <- get rs 0 ;;
        e <- EvaluatePolynomial c r ;;
        iverify_loop e proof' (skipn 1 rs) (challenges ++ [r])
      else Some None
    end.

  (** sumcheck/verifier.go:14-44 Verify *)
  Definition IVerify (claim : F) (proof : list (list F)) (rs : list F) (bG : nat)
    : option (option (list F * list F * list F * F * list F)) :=
    res <- iverify_loop claim proof rs [] ;;
    match res with
    | None => Some None
    | Some (challenges, expectedValue, rs) =>
      qL <- slice challenges 0 bG ;;
      qR <- slice challenges bG (2 * bG) ;;
      qPrime <- slice challenges (2 * bG) (length challenges) ;;
      Some (Some (qPrime, qL, qR, expectedValue, rs))
    end.

  (** gkr/verifier.go:65-101, with the next of the challenges [rs] instead of the hash of line 71 and [false] in line 99. *)
  Fixpoint iverifyLayers (c : Circuit F) (pf : Proof F) (todo : nat) (nextQPrime nextQL nextQR rs : list F)
    : option (option (list F * list F * list F)) :=
    match todo with
    | O => Some (Some (nextQPrime, nextQL, nextQR))
    | S layer =>
      cl <- get (ClaimsLeft pf) (layer + 1) ;;
      cr <- get (ClaimsRight pf) (layer + 1) ;;
      let lambdaL := 1 in
      lambdaR <- get rs 0 ;;
      let claim := cr * lambdaR in
      let claim := claim + cl in
      let qL := nextQL in
      let qR := nextQR in
      let qPrime := nextQPrime in
      sp <- get (SumcheckProofs pf) layer ;;
      l <- get c layer ;;
      res <- IVerify claim sp (skipn 1 rs) (lBGInputs l) ;;
      match res with
      | None => Some None
      | Some (nextQPrime, nextQL, nextQR, totalClaim, rs) =>
        eqEval <- EvalEq qPrime nextQPrime ;;
        vl <- get (ClaimsLeft pf) layer ;;
        vr <- get (ClaimsRight pf) layer ;;
        sts <- evaluateStaticTablesLinCombs l qL qR nextQL nextQR lambdaL lambdaR ;;
        evaluated <- EvaluateCombinator vl vr eqEval (lGates l) sts ;;
        if totalClaim =? evaluated then iverifyLayers c pf layer nextQPrime nextQL nextQR rs
        else Some None
      end
    end.

  (** gkr/verifier.go:27-114 Verify as in [RGkrVerify], where the first challenges are the point at which the outputs are
      read. *)
  Definition IGkrVerify (rs : list F) (bN : nat) (c : Circuit F) (pf : Proof F) (inputs outputs : list (list F))
    : option bool :=
    let nLayers := length c in
    if negb (shapeOK bN c pf) then Some false else
    last <- gosub nLayers 1 ;;
    l <- get c last ;;
    q <- slice rs 0 (lBGOutputs l) ;;
    qPrime <- slice rs (lBGOutputs l) (lBGOutputs l + bN) ;;
    claim <- REvaluateChunked outputs (q ++ qPrime) ;;
    sp <- get (SumcheckProofs pf) last ;;
    res <- IVerify claim sp (skipn (lBGOutputs l + bN) rs) (lBGInputs l) ;;
    match res with
    | None => Some false
    | Some (nextQPrime, nextQL, nextQR, totalClaim, rs) =>
      evalEq <- EvalEq qPrime nextQPrime ;;
      vl <- get (ClaimsLeft pf) last ;;
      vr <- get (ClaimsRight pf) last ;;
      sts <- evaluateStaticTables l q nextQL nextQR ;;
      evaluated <- EvaluateCombinator vl vr evalEq (lGates l) sts ;;
      if totalClaim =? evaluated then
        r <- iverifyLayers c pf last nextQPrime nextQL nextQR rs ;;
        match r with
        | None => Some false
        | Some (nextQPrime, nextQL, nextQR) =>
          '(actualVL, actualVR) <- REvaluateMixedChunked inputs nextQPrime nextQL nextQR ;;
          vl0 <- get (ClaimsLeft pf) 0 ;;
          vr0 <- get (ClaimsRight pf) 0 ;;
          Some ((actualVL =? vl0) && (actualVR =? vr0))
        end
      else Some false
    end.

  (** ** The challenges *)

  (** What is hashed: the statement, the messages and the challenges so far. *)
  Record Query := MkQuery { qIn : list (list F); qOut : list (list F); qMsgs : list (list F); qChals : list F }.

  (** The query for the challenge after [chs].  The first [n0] challenges are derived before any message, the others
      after one message each. *)
  Definition fs_query (n0 : nat) (inputs outputs msgs : list (list F)) (chs : list F) : Query :=
    MkQuery inputs outputs (firstn (S (length chs) - n0) msgs) chs.

  Fixpoint fs_challenges (H : Query -> F) (n0 : nat) (inputs outputs msgs : list (list F)) (n : nat) : list F :=
    match n with
    | O => []
    | S n' =>
      let chs := fs_challenges H n0 inputs outputs msgs n' in
      chs ++ [H (fs_query n0 inputs outputs msgs chs)]
    end.

  (** The number of coordinates of the first point, and the number of all challenges. *)
  Definition start_count (bN : nat) (c : Circuit F) : nat := (lBGOutputs (nth (length c - 1) c (NewLayer [])) + bN)%nat.
  Definition fs_count (bN : nat) (c : Circuit F) : nat := (start_count bN c + challenge_count bN c)%nat.

  (** The verifier with the hash function [H]. *)
  Definition FSVerify (H : Query -> F) (bN : nat) (c : Circuit F) (pf : Proof F) (inputs outputs : list (list F)) : option bool :=
    IGkrVerify (fs_challenges H (start_count bN c) inputs outputs (messages (length c) pf) (fs_count bN c)) bN c pf inputs outputs.
End Fiat.

Arguments Query : clear implicits.
