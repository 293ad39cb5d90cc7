(** Model of package sumcheck, single-threaded part: prover.go, evals.go, verifier.go. *)
From Coq Require Import List Arith ZArith Lia Bool.
From Verif Require Import Field Go MCommon MPoly MCircuit.
Import ListNotations.

Section Sumcheck.
  Context {F : Field}.
  Open Scope F_scope.

  (** sumcheck/prover.go:17-29 SingleThreadedProver *)
  Record Prover := MkProver {
    sVL : list F; sVR : list F; sEq : list F;
    sGates : list (Gate F); sStatic : list (list F);
    dHL : nat; dHR : nat; dHPrime : nat }.

  (** sumcheck/prover.go:32-57 NewSingleThreadedProver (common.Max on non-negative ints) *)
  Definition NewSingleThreadedProver (vL vR eq : list F) (gates : list (Gate F)) (statics : list (list F)) : Prover :=
    let '(degreeHL, degreeHR, degreeHPrime) :=
      fold_left (fun '(a, b, c) g => (Nat.max a (degHL g), Nat.max b (degHR g), Nat.max c (degHPrime g)))
        gates (0, 0, 0)%nat in
    MkProver vL vR eq gates statics (degreeHL + 1) (degreeHR + 1) (degreeHPrime + 1).

  (** [s[i][j].Add(&s[i][j], &v)] *)
  Definition addTo2 (s : list (list F)) (i j : nat) (v : F) : option (list (list F)) :=
    row <- get s i ;; x <- get row j ;; row <- set row j (x + v) ;; set s i row.

  (** [s[i][j][k].Add(&s[i][j][k], &v)] *)
  Definition addTo3 (s : list (list (list F))) (i j k : nat) (v : F) : option (list (list (list F))) :=
    mat <- get s i ;; row <- get mat j ;; x <- get row k ;;
    row <- set row k (x + v) ;; mat <- set mat j row ;; set s i mat.

  (** [buf[0] = a; for t := 1; t < nEvals; t++ { buf[t].Add(&buf[t-1], &delta) }] *)
  Definition fillLine (nEvals : nat) (buf : list F) (a delta : F) : option (list F) :=
    buf <- set buf 0 a ;;
    forRange 1 nEvals (fun buf t => x <- get buf (t - 1) ;; set buf t (x + delta)) buf.

  (** sumcheck/evals.go:10-61 GetClaim *)
  Definition GetClaim (p : Prover) : option F :=
    let n := length (sEq p) in
    g <- godiv (length (sVL p)) n ;;
    let nGate := length (sStatic p) in
    (* 27-33 *)
    staticIsNotZero <- mapM (fun tab =>
      mapM (fun h => x <- get tab h ;; Some (negb (x =? 0))) (seq 0 (g * g))) (sStatic p) ;;
    (* 36-51 *)
    splitValues <- forN n (fun sp hPrime =>
      eq <- get (sEq p) hPrime ;;
      forN g (fun sp hL =>
        vL <- get (sVL p) (hL * n + hPrime) ;;
        forN g (fun sp hR =>
          vR <- get (sVR p) (hR * n + hPrime) ;;
          forN nGate (fun sp i =>
            nz <- get staticIsNotZero i ;;
            b <- get nz (hL * g + hR) ;;
            if (b : bool) then
              gate <- get (sGates p) i ;;
              let v := geval gate vL vR in
              let v := v * eq in
              addTo2 sp i (hL * g + hR) v
            else Some sp) sp) sp) sp) (repeat (repeat 0 (g * g)) nGate) ;;
    (* 54-60 *)
    foldM (fun res isv =>
      tab <- get (sStatic p) (fst isv) ;;
      foldM (fun res hv =>
        s <- get tab (fst hv) ;;
        let v := snd hv * s in
        Some (res + v)) (combine (seq 0 (length (snd isv))) (snd isv)) res)
      (combine (seq 0 (length splitValues)) splitValues) 0.

  (** The loops evals.go:79-95 and 112-129 over one static table: for every [h < size], whether the
      entry and its variation both vanish, and the [nEvals] values along the line. *)
  Definition evalStatic (nEvals size : nat) (tab : list F) : option (list bool * list (list F)) :=
    pre <- FunctionEvals tab ;;
    nz <- mapM (fun h =>
      x <- get tab h ;; d <- get pre h ;; Some (negb ((x =? 0) && (d =? 0)))) (seq 0 size) ;;
    ev <- mapM (fun h =>
      x <- get tab h ;; d <- get pre h ;; fillLine nEvals (repeat 0 nEvals) x d) (seq 0 size) ;;
    Some (nz, ev).

  (** evals.go:211-219 and 281-289: combination of the split values *)
  Definition combineSplit (nEvals : nat) (sp ev : list (list (list F))) : option (list F) :=
    foldM (fun res isv =>
      foldM (fun res hsv =>
        foldM (fun res tv =>
          mat <- get ev (fst isv) ;; row <- get mat (fst hsv) ;; s <- get row (fst tv) ;;
          let v := snd tv * s in
          x <- get res (fst tv) ;; set res (fst tv) (x + v))
          (combine (seq 0 (length (snd hsv))) (snd hsv)) res)
        (combine (seq 0 (length (snd isv))) (snd isv)) res)
      (combine (seq 0 (length sp)) sp) (repeat 0 nEvals).

  (** evals.go:200-205 and 270-275: [for t, v = range vS { v *= eq; splitValues[i][h][t] += v }] *)
  Definition addScaled (sp : list (list (list F))) (i h : nat) (vS : list F) (eq : F)
    : option (list (list (list F))) :=
    foldM (fun sp tv => let v := snd tv * eq in addTo3 sp i h (fst tv) v)
      (combine (seq 0 (length vS)) vS) sp.

  (** sumcheck/evals.go:148-221 accumulateEvalsOnHL.  Loop state: splitValues and the reused
      buffers evaledVLs, vS. *)
  Definition accumulateEvalsOnHL (p : Prover) (nz : list (list bool)) (ev : list (list (list F))) : option (list F) :=
    let n := length (sEq p) in
    g <- godiv (length (sVR p)) n ;;
    st0 <- get (sStatic p) 0 ;;
    lenHL <- godiv (length st0) g ;;
    let nGate := length (sStatic p) in
    let nEvals := (dHL p + 1)%nat in
    let mid := (length (sVL p) / 2)%nat in
    '(sp, _, _) <- forN n (fun st hPrime =>
      evaledEq <- get (sEq p) hPrime ;;
      forN (lenHL / 2) (fun '(sp, evaledVLs, vS) hL =>
        let bVL := (hL * n + hPrime)%nat in
        a <- get (sVL p) bVL ;;
        top <- get (sVL p) (bVL + mid) ;;
        evaledVLs <- fillLine nEvals evaledVLs a (top - a) ;;
        forN g (fun '(sp, evaledVLs, vS) hR =>
          let h := (hL * g + hR)%nat in
          evaledVR <- get (sVR p) (hR * n + hPrime) ;;
          foldM (fun '(sp, evaledVLs, vS) ig =>
            row <- get nz (fst ig) ;;
            b <- get row h ;;
            if (b : bool) then
              vS <- gmanyVL (snd ig) vS evaledVLs evaledVR ;;
              sp <- addScaled sp (fst ig) h vS evaledEq ;;
              Some (sp, evaledVLs, vS)
            else Some (sp, evaledVLs, vS))
            (combine (seq 0 (length (sGates p))) (sGates p)) (sp, evaledVLs, vS))
          (sp, evaledVLs, vS)) st)
      (repeat (repeat (repeat 0 nEvals) (lenHL * g / 2)) nGate, repeat 0 nEvals, repeat 0 nEvals) ;;
    combineSplit nEvals sp ev.

  (** sumcheck/evals.go:64-98 GetEvalsOnHL *)
  Definition GetEvalsOnHL (p : Prover) : option (list F) :=
    let n := length (sEq p) in
    g <- godiv (length (sVR p)) n ;;
    st0 <- get (sStatic p) 0 ;;
    lenHL <- godiv (length st0) g ;;
    let nEvals := (dHL p + 1)%nat in
    nzev <- mapM (evalStatic nEvals (lenHL * g / 2)) (sStatic p) ;;
    accumulateEvalsOnHL p (map fst nzev) (map snd nzev).

  (** sumcheck/evals.go:223-291 accumulateEvalsOnHR *)
  Definition accumulateEvalsOnHR (p : Prover) (nz : list (list bool)) (ev : list (list (list F))) : option (list F) :=
    let n := length (sEq p) in
    lenHR <- godiv (length (sVR p)) n ;;
    let nGate := length (sStatic p) in
    let nEvals := (dHR p + 1)%nat in
    let mid := (length (sVR p) / 2)%nat in
    '(sp, _, _) <- forN n (fun st hPrime =>
      evaledEq <- get (sEq p) hPrime ;;
      evaledVL <- get (sVL p) hPrime ;;
      forN (lenHR / 2) (fun '(sp, evaledVRs, vS) hR =>
        let bVR := (hR * n + hPrime)%nat in
        a <- get (sVR p) bVR ;;
        top <- get (sVR p) (bVR + mid) ;;
        evaledVRs <- fillLine nEvals evaledVRs a (top - a) ;;
        foldM (fun '(sp, evaledVRs, vS) ig =>
          row <- get nz (fst ig) ;;
          b <- get row hR ;;
          if (b : bool) then
            vS <- gmanyVR (snd ig) vS evaledVL evaledVRs ;;
            sp <- addScaled sp (fst ig) hR vS evaledEq ;;
            Some (sp, evaledVRs, vS)
          else Some (sp, evaledVRs, vS))
          (combine (seq 0 (length (sGates p))) (sGates p)) (sp, evaledVRs, vS)) st)
      (repeat (repeat (repeat 0 nEvals) (lenHR / 2)) nGate, repeat 0 nEvals, repeat 0 nEvals) ;;
    combineSplit nEvals sp ev.

  (** sumcheck/evals.go:101-132 GetEvalsOnHR *)
  Definition GetEvalsOnHR (p : Prover) : option (list F) :=
    let n := length (sEq p) in
    lenHR <- godiv (length (sVR p)) n ;;
    let nEvals := (dHR p + 1)%nat in
    nzev <- mapM (evalStatic nEvals (lenHR / 2)) (sStatic p) ;;
    accumulateEvalsOnHR p (map fst nzev) (map snd nzev).

  (** sumcheck/evals.go:293-354 accumulateEvalsOnHPrime *)
  Definition accumulateEvalsOnHPrime (p : Prover) (staticTablesVals : list F) : option (list F) :=
    let nGate := length (sStatic p) in
    let nEvals := (dHPrime p + 1)%nat in
    let mid := (length (sEq p) / 2)%nat in
    '(sp, _, _, _) <- forN mid (fun '(sp, bL, bR, bE) hPrime =>
      aL <- get (sVL p) hPrime ;;
      aR <- get (sVR p) hPrime ;;
      aE <- get (sEq p) hPrime ;;
      tL <- get (sVL p) (hPrime + mid) ;;
      tR <- get (sVR p) (hPrime + mid) ;;
      tE <- get (sEq p) (hPrime + mid) ;;
      bL <- fillLine nEvals bL aL (tL - aL) ;;
      bR <- fillLine nEvals bR aR (tR - aR) ;;
      bE <- fillLine nEvals bE aE (tE - aE) ;;
      sp <- foldM (fun sp ig =>
        forN nEvals (fun sp t =>
          xL <- get bL t ;; xR <- get bR t ;; xE <- get bE t ;;
          let v := geval (snd ig) xL xR in
          let v := v * xE in
          addTo2 sp (fst ig) t v) sp)
        (combine (seq 0 (length (sGates p))) (sGates p)) sp ;;
      Some (sp, bL, bR, bE))
      (repeat (repeat 0 nEvals) nGate, repeat 0 nEvals, repeat 0 nEvals, repeat 0 nEvals) ;;
    (* 345-351 *)
    foldM (fun res isv =>
      foldM (fun res tv =>
        s <- get staticTablesVals (fst isv) ;;
        let v := snd tv * s in
        x <- get res (fst tv) ;; set res (fst tv) (x + v))
        (combine (seq 0 (length (snd isv))) (snd isv)) res)
      (combine (seq 0 (length sp)) sp) (repeat 0 nEvals).

  (** sumcheck/evals.go:135-146 GetEvalsOnHPrime *)
  Definition GetEvalsOnHPrime (p : Prover) : option (list F) :=
    vals <- mapM (fun tab => get tab 0) (sStatic p) ;;
    accumulateEvalsOnHPrime p vals.

  (** sumcheck/prover.go:113-118 FoldHL *)
  Definition FoldHL (p : Prover) (r : F) : option Prover :=
    st <- mapM (fun tab => Fold tab r) (sStatic p) ;;
    v <- Fold (sVL p) r ;;
    Some (MkProver v (sVR p) (sEq p) (sGates p) st (dHL p) (dHR p) (dHPrime p)).

  (** sumcheck/prover.go:121-126 FoldHR *)
  Definition FoldHR (p : Prover) (r : F) : option Prover :=
    st <- mapM (fun tab => Fold tab r) (sStatic p) ;;
    v <- Fold (sVR p) r ;;
    Some (MkProver (sVL p) v (sEq p) (sGates p) st (dHL p) (dHR p) (dHPrime p)).

  (** sumcheck/prover.go:129-133 FoldHPrime *)
  Definition FoldHPrime (p : Prover) (r : F) : option Prover :=
    vr <- Fold (sVR p) r ;;
    vl <- Fold (sVL p) r ;;
    e <- Fold (sEq p) r ;;
    Some (MkProver vl vr e (sGates p) (sStatic p) (dHL p) (dHR p) (dHPrime p)).

  (** sumcheck/prover.go:12-14: a Proof is its only field PolyCoeffs, a list of coefficient lists. *)

  (** common/challenge.go:10-12 GetChallenge, the hash of its arguments; any function here.
      It is instantiated with the model of hash.MimcHash in MGkr.v. *)
  Variable GetChallenge : list F -> F.

  (** One round: evaluations, interpolation, challenge, fold.  [PolyCoeffs[i]] and [q[i]] are
      written in increasing order of [i], so the arrays are modelled by appending. *)
  Definition round (evals : Prover -> option (list F)) (fold : Prover -> F -> option Prover)
      (st : Prover * list (list F) * list F) : option (Prover * list (list F) * list F) :=
    let '(p, proof, q) := st in
    e <- evals p ;;
    c <- InterpolateOnRange e ;;
    let r := GetChallenge c in
    p <- fold p r ;;
    Some (p, proof ++ [c], q ++ [r]).

  Definition rounds (k : nat) evals fold (st : Prover * list (list F) * list F) : option (Prover * list (list F) * list F) :=
    forN k (fun st _ => round evals fold st) st.

  (** sumcheck/prover.go:100-105 *)
  Definition finalClaimsOf (p : Prover) : option (list F) :=
    a <- get (sVL p) 0 ;;
    b <- get (sVR p) 0 ;;
    c <- get (sEq p) 0 ;;
    st <- mapM (fun tab => get tab 0) (sStatic p) ;;
    Some (a :: b :: c :: st).

  (** sumcheck/prover.go:60-110 Prove: (proof, qPrime, qL, qR, finalClaims) *)
  Definition Prove (p : Prover) : option (list (list F) * list F * list F * list F * list F) :=
    let n := length (sEq p) in
    g <- godiv (length (sVR p)) n ;;
    let bN := log2ceil n in
    let bG := log2ceil g in
    '(p, proof, qL) <- rounds bG GetEvalsOnHL FoldHL (p, [], []) ;;
    '(p, proof, qR) <- rounds bG GetEvalsOnHR FoldHR (p, proof, []) ;;
    '(p, proof, qPrime) <- rounds bN GetEvalsOnHPrime FoldHPrime (p, proof, []) ;;
    finalClaims <- finalClaimsOf p ;;
    Some (proof, qPrime, qL, qR, finalClaims).

  (** What Verify returns: [false, nil, ...] or [true, qPrime, qL, qR, finalClaim]. *)
  Inductive VerifyResult := Reject | Accept (qPrime qL qR : list F) (finalClaim : F).

  (** sumcheck/verifier.go:21-36: the loop; [Some None] is the early [return false]. *)
  Fixpoint verify_loop (expectedValue : F) (proof : list (list F)) (challenges : list F)
    : option (option (list F * F)) :=
    match proof with
    | [] => Some (Some (challenges, expectedValue))
    | c :: proof' =>
      actualValue <- EvaluatePolynomial c 0 ;;
      evalAtOne <- EvaluatePolynomial c 1 ;;
      let actualValue := actualValue + evalAtOne in
      if expectedValue =? actualValue then
        let r := GetChallenge c in
        e <- EvaluatePolynomial c r ;;
        verify_loop e proof' (challenges ++ [r])
      else Some None
    end.

  (** sumcheck/verifier.go:14-44 Verify.  The argument bN is not used by the code. *)
  Definition Verify (claim : F) (proof : list (list F)) (bN bG : nat) : option VerifyResult :=
    res <- verify_loop claim proof [] ;;
    match res with
    | None => Some Reject
    | Some (challenges, expectedValue) =>
      qL <- slice challenges 0 bG ;;
      qR <- slice challenges bG (2 * bG) ;;
      qPrime <- slice challenges (2 * bG) (length challenges) ;;
      Some (Accept qPrime qL qR expectedValue)
    end.
End Sumcheck.

Arguments Prover : clear implicits.
Arguments VerifyResult : clear implicits.
