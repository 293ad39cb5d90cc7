(** Counting the field multiplications of a sub-prover goroutine of the multi-threaded sum-check (sumcheck/par.go).
    As in MCost.v a computation returns its result with the number of multiplications. *)
From Coq Require Import List Arith Bool.
From Verif Require Import Field Go MCommon MPoly MCircuit MSumcheck MSumPar MCost.
Import ListNotations.

Section S.
  Context {F : Field}.
  Variable gs : list (WGate F).

  (** sumcheck/par.go:260-285: what is sent in iteration [j] of the three loops *)
  Definition WsubEvals (j : nat) (s : Sub F) : W (list F) :=
    if j <? subG s then WGetEvalsOnHL gs (subProver s)
    else if j <? subG s + subG s then WGetEvalsOnHR gs (subProver s)
    else WGetEvalsOnHPrime gs (subProver s).

  (** the same lines: what is done with the challenge received *)
  Definition WsubFold (j : nat) (s : Sub F) (r : F) : W (Sub F) :=
    sp <~ (if j <? subG s then WFoldHL (subProver s) r
           else if j <? subG s + subG s then WFoldHR (subProver s) r
           else WFoldHPrime (subProver s) r) ;;
    ret (MkSub sp (subG s) (subN s)).

  (** One iteration on the challenge that the main goroutine broadcasts. *)
  Definition WsubRound (s : Sub F) (jr : nat * F) : W (Sub F) :=
    if subMore (fst jr) s then
      _ <~ WsubEvals (fst jr) s ;;
      WsubFold (fst jr) s (snd jr)
    else None.

  (** All iterations on the challenges [qL], [qR] and [qP] of the three loops, whenever they arrive. *)
  Definition WsubRun (qL qR qP : list F) (s : Sub F) : W (Sub F) :=
    s <~ foldW WsubRound (combine (seq 0 (length qL)) qL) s ;;
    s <~ foldW WsubRound (combine (seq (length qL) (length qR)) qR) s ;;
    foldW WsubRound (combine (seq (length qL + length qR) (length qP)) qP) s.

  Variable GetChallenge : list F -> F.

  (** par.go:96-147: the main goroutine's part of round [i], as in mtRound *)
  Definition WmtRound (bG i : nat) (l : MLoc (F := F)) (evals : list F) : W (MLoc (F := F) * F) :=
    c <~ WInterpolateOnRange evals ;;
    let r := GetChallenge c in
    let proof := lProof l ++ [c] in
    ret ((if i <? bG then MkLoc proof (lQP l) (lQL l ++ [r]) (lQR l)
          else if i <? 2 * bG then MkLoc proof (lQP l) (lQL l) (lQR l ++ [r])
          else MkLoc proof (lQP l ++ [r]) (lQL l) (lQR l)), r).

  (** par.go:175-181, 131-143, 148: the rounds on the merged tables, as in mtFinish *)
  Definition WmtFinish (k : nat) (l : MLoc (F := F)) (g : Merged (F := F)) : W (list (list F) * list F * list F * list F * list F) :=
    let '(newVL, newVR, newEq, gates, st) := g in
    let newP := NewSingleThreadedProver newVL newVR newEq gates st in
    '(p, proof, qPrime) <~ Wrounds GetChallenge k (WGetEvalsOnHPrime gs) WFoldHPrime (newP, lProof l, lQP l) ;;
    fc <- finalClaimsOf p ;;
    ret (proof, qPrime, lQL l, lQR l, fc).
End S.
