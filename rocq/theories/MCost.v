(** Counting model of the single-threaded sum-check prover and of the sum-check verifier: the functions of MSumcheck.v
    once more, with the number of field multiplications (calls of fr.Element's Mul and Square) that they make.  Additions,
    subtractions, copies, allocations and the hash behind GetChallenge are not counted; the Lagrange polynomials are
    computed when the program starts (polynomial/lagrange.go:23-28) and only looked up here. *)
From Coq Require Import List Arith ZArith Lia Bool.
From Verif Require Import Field Go MCommon MPoly MCircuit MSumcheck.
Import ListNotations.

(** A result and a number of multiplications; a panic is [None]. *)
Definition W (A : Type) := option (A * nat).
Definition ret {A} (a : A) : W A := Some (a, 0).
Definition bindW {A B} (m : W A) (f : A -> W B) : W B :=
  match m with
  | Some (a, n) => match f a with Some (b, k) => Some (b, n + k) | None => None end
  | None => None
  end.
Notation "x <~ e ;; k" := (bindW e (fun x => k)) (at level 60, e at next level, right associativity).
Notation "' p <~ e ;; k" := (bindW e (fun x => match x with p => k end)) (at level 60, p pattern, e at next level, right associativity).

Fixpoint foldW {A S} (f : S -> A -> W S) (l : list A) (s : S) : W S :=
  match l with
  | [] => ret s
  | a :: l' => s' <~ f s a ;; foldW f l' s'
  end.
Fixpoint mapW {A B} (f : A -> W B) (l : list A) : W (list B) :=
  match l with
  | [] => ret []
  | a :: l' => b <~ f a ;; bs <~ mapW f l' ;; ret (b :: bs)
  end.
Definition forW {S} (n : nat) (f : S -> nat -> W S) (s : S) : W S := foldW f (seq 0 n) s.

Section Cost.
  Context {F : Field}.
  Open Scope F_scope.

  (** fr.Element: Mul, and Square of equal arguments *)
  Definition wmul (x y : F) : W F := Some (x * y, 1%nat).

  (* ---------------------------------------------------------------- polynomial *)
  (** polynomial/book_keeping.go:38-49 Fold *)
  Definition WFold (t : list F) (r : F) : W (list F) :=
    let mid := middleIndex t in
    t' <~ forW mid (fun t i =>
      ti <- get t (mid + i) ;;
      bi <- get t i ;;
      ti <~ wmul (ti - bi) r ;;
      t <- set t (mid + i) ti ;;
      t <- set t i (bi + ti) ;;
      ret t) t ;;
    t' <- slice t' 0 mid ;;
    ret t'.

  (** polynomial/lagrange.go:31-39 EvaluatePolynomial *)
  Definition WEvaluatePolynomial (coeffs : list F) (x : F) : W F :=
    last <- gosub (length coeffs) 1 ;;
    result <- get coeffs last ;;
    foldW (fun result i =>
      result <~ wmul result x ;;
      c <- get coeffs i ;;
      ret (result + c)) (rev (seq 0 last)) result.

  (** polynomial/lagrange.go:96-111 InterpolateOnRange *)
  Definition WInterpolateOnRange (values : list F) : W (list F) :=
    let nEvals := length values in
    lagrange <- GetLagrangePolynomial nEvals ;;
    forW nEvals (fun result i =>
      value <- get values i ;;
      row <- get lagrange i ;;
      forW (length row) (fun result j =>
        lagrangeCoeff <- get row j ;;
        tmp <~ wmul lagrangeCoeff value ;;
        x <- get result j ;;
        result <- set result j (x + tmp) ;;
        ret result) result) (repeat 0 nEvals).

  (* ---------------------------------------------------------------- circuit/gates.go *)
  (** A gate, and its methods Eval, EvalManyVL and EvalManyVR with counts. *)
  Record WGate := MkWGate {
    wbase : Gate F;
    wEval : F -> F -> W F;
    wManyVL : list F -> list F -> F -> W (list F);
    wManyVR : list F -> F -> list F -> W (list F) }.

  (** circuit/gates.go:39-73 AddGate *)
  Definition WAddGate : WGate := MkWGate AddGate
    (fun vL vR => ret (vL + vR))
    (fun res vLs vR => forW (length vLs) (fun res i => vL <- get vLs i ;; res <- set res i (vL + vR) ;; ret res) res)
    (fun res vL vRs => forW (length vRs) (fun res i => vR <- get vRs i ;; res <- set res i (vL + vR) ;; ret res) res).

  (** circuit/gates.go:76-108 MulGate *)
  Definition WMulGate : WGate := MkWGate MulGate
    (fun vL vR => wmul vL vR)
    (fun res vLs vR => forW (length vLs) (fun res i => vL <- get vLs i ;; v <~ wmul vL vR ;; res <- set res i v ;; ret res) res)
    (fun res vL vRs => forW (length vRs) (fun res i => vR <- get vRs i ;; v <~ wmul vL vR ;; res <- set res i v ;; ret res) res).

  (** circuit/gates.go:111-142 CopyGate *)
  Definition WCopyGate : WGate := MkWGate CopyGate
    (fun vL vR => ret vL)
    (fun res vLs vR => ret (gocopy res vLs))
    (fun res vL vRs => forW (length vRs) (fun res i => res <- set res i vL ;; ret res) res).

  (** circuit/gates.go:145-218 CipherGate *)
  Definition WCipherGate (ark : F) : WGate := MkWGate (CipherGate ark)
    (* Eval, 158-169 *)
    (fun vL vR =>
       let tmp := vR + ark in
       res <~ wmul tmp tmp ;;
       res <~ wmul res tmp ;;
       res <~ wmul res res ;;
       res <~ wmul res tmp ;;
       ret (res + vL))
    (* EvalManyVL, 200-213 *)
    (fun res vLs vR =>
       let tmp := vR + ark in
       right <~ wmul tmp tmp ;;
       right <~ wmul right tmp ;;
       right <~ wmul right right ;;
       right <~ wmul right tmp ;;
       forW (length vLs) (fun res i => vL <- get vLs i ;; res <- set res i (right + vL) ;; ret res) res)
    (* EvalManyVR, 183-196 *)
    (fun res vL vRs => forW (length vRs) (fun res i =>
       vR <- get vRs i ;;
       let tmp := vR + ark in
       v <~ wmul tmp tmp ;; res <- set res i v ;;
       x <- get res i ;; v <~ wmul x tmp ;; res <- set res i v ;;
       x <- get res i ;; v <~ wmul x x ;; res <- set res i v ;;
       x <- get res i ;; v <~ wmul x tmp ;; res <- set res i v ;;
       x <- get res i ;; res <- set res i (x + vL) ;; ret res) res).

  (* ---------------------------------------------------------------- sumcheck/evals.go *)
  (** The prover's gates, with counts; its tables are in the record of MSumcheck.v. *)
  Variable gates : list WGate.

  (** 211-219 and 281-289 *)
  Definition WcombineSplit (nEvals : nat) (sp ev : list (list (list F))) : W (list F) :=
    foldW (fun res isv =>
      foldW (fun res hsv =>
        foldW (fun res tv =>
          mat <- get ev (fst isv) ;; row <- get mat (fst hsv) ;; s <- get row (fst tv) ;;
          v <~ wmul (snd tv) s ;;
          x <- get res (fst tv) ;; res <- set res (fst tv) (x + v) ;; ret res)
          (combine (seq 0 (length (snd hsv))) (snd hsv)) res)
        (combine (seq 0 (length (snd isv))) (snd isv)) res)
      (combine (seq 0 (length sp)) sp) (repeat 0 nEvals).

  (** 200-205 and 270-275 *)
  Definition WaddScaled (sp : list (list (list F))) (i h : nat) (vS : list F) (eq : F) : W (list (list (list F))) :=
    foldW (fun sp tv => v <~ wmul (snd tv) eq ;; sp <- addTo3 sp i h (fst tv) v ;; ret sp)
      (combine (seq 0 (length vS)) vS) sp.

  (** 148-221 accumulateEvalsOnHL *)
  Definition WaccumulateEvalsOnHL (p : Prover F) (nz : list (list bool)) (ev : list (list (list F))) : W (list F) :=
    let n := length (sEq p) in
    g <- godiv (length (sVR p)) n ;;
    st0 <- get (sStatic p) 0 ;;
    lenHL <- godiv (length st0) g ;;
    let nGate := length (sStatic p) in
    let nEvals := (dHL p + 1)%nat in
    let mid := (length (sVL p) / 2)%nat in
    '(sp, _, _) <~ forW n (fun st hPrime =>
      evaledEq <- get (sEq p) hPrime ;;
      forW (lenHL / 2) (fun '(sp, evaledVLs, vS) hL =>
        let bVL := (hL * n + hPrime)%nat in
        a <- get (sVL p) bVL ;;
        top <- get (sVL p) (bVL + mid) ;;
        evaledVLs <- fillLine nEvals evaledVLs a (top - a) ;;
        forW g (fun '(sp, evaledVLs, vS) hR =>
          let h := (hL * g + hR)%nat in
          evaledVR <- get (sVR p) (hR * n + hPrime) ;;
          foldW (fun '(sp, evaledVLs, vS) ig =>
            row <- get nz (fst ig) ;;
            b <- get row h ;;
            if (b : bool) then
              vS <~ wManyVL (snd ig) vS evaledVLs evaledVR ;;
              sp <~ WaddScaled sp (fst ig) h vS evaledEq ;;
              ret (sp, evaledVLs, vS)
            else ret (sp, evaledVLs, vS))
            (combine (seq 0 (length gates)) gates) (sp, evaledVLs, vS))
          (sp, evaledVLs, vS)) st)
      (repeat (repeat (repeat 0 nEvals) (lenHL * g / 2)) nGate, repeat 0 nEvals, repeat 0 nEvals) ;;
    WcombineSplit nEvals sp ev.

  (** 64-98 GetEvalsOnHL; the loops over the static tables only add *)
  Definition WGetEvalsOnHL (p : Prover F) : W (list F) :=
    let n := length (sEq p) in
    g <- godiv (length (sVR p)) n ;;
    st0 <- get (sStatic p) 0 ;;
    lenHL <- godiv (length st0) g ;;
    let nEvals := (dHL p + 1)%nat in
    nzev <- mapM (evalStatic nEvals (lenHL * g / 2)) (sStatic p) ;;
    WaccumulateEvalsOnHL p (map fst nzev) (map snd nzev).

  (** 223-291 accumulateEvalsOnHR *)
  Definition WaccumulateEvalsOnHR (p : Prover F) (nz : list (list bool)) (ev : list (list (list F))) : W (list F) :=
    let n := length (sEq p) in
    lenHR <- godiv (length (sVR p)) n ;;
    let nGate := length (sStatic p) in
    let nEvals := (dHR p + 1)%nat in
    let mid := (length (sVR p) / 2)%nat in
    '(sp, _, _) <~ forW n (fun st hPrime =>
      evaledEq <- get (sEq p) hPrime ;;
      evaledVL <- get (sVL p) hPrime ;;
      forW (lenHR / 2) (fun '(sp, evaledVRs, vS) hR =>
        let bVR := (hR * n + hPrime)%nat in
        a <- get (sVR p) bVR ;;
        top <- get (sVR p) (bVR + mid) ;;
        evaledVRs <- fillLine nEvals evaledVRs a (top - a) ;;
        foldW (fun '(sp, evaledVRs, vS) ig =>
          row <- get nz (fst ig) ;;
          b <- get row hR ;;
          if (b : bool) then
            vS <~ wManyVR (snd ig) vS evaledVL evaledVRs ;;
            sp <~ WaddScaled sp (fst ig) hR vS evaledEq ;;
            ret (sp, evaledVRs, vS)
          else ret (sp, evaledVRs, vS))
          (combine (seq 0 (length gates)) gates) (sp, evaledVRs, vS)) st)
      (repeat (repeat (repeat 0 nEvals) (lenHR / 2)) nGate, repeat 0 nEvals, repeat 0 nEvals) ;;
    WcombineSplit nEvals sp ev.

  (** 101-132 GetEvalsOnHR *)
  Definition WGetEvalsOnHR (p : Prover F) : W (list F) :=
    let n := length (sEq p) in
    lenHR <- godiv (length (sVR p)) n ;;
    let nEvals := (dHR p + 1)%nat in
    nzev <- mapM (evalStatic nEvals (lenHR / 2)) (sStatic p) ;;
    WaccumulateEvalsOnHR p (map fst nzev) (map snd nzev).

  (** 293-354 accumulateEvalsOnHPrime *)
  Definition WaccumulateEvalsOnHPrime (p : Prover F) (staticTablesVals : list F) : W (list F) :=
    let nGate := length (sStatic p) in
    let nEvals := (dHPrime p + 1)%nat in
    let mid := (length (sEq p) / 2)%nat in
    '(sp, _, _, _) <~ forW mid (fun '(sp, bL, bR, bE) hPrime =>
      aL <- get (sVL p) hPrime ;;
      aR <- get (sVR p) hPrime ;;
      aE <- get (sEq p) hPrime ;;
      tL <- get (sVL p) (hPrime + mid) ;;
      tR <- get (sVR p) (hPrime + mid) ;;
      tE <- get (sEq p) (hPrime + mid) ;;
      bL <- fillLine nEvals bL aL (tL - aL) ;;
      bR <- fillLine nEvals bR aR (tR - aR) ;;
      bE <- fillLine nEvals bE aE (tE - aE) ;;
      sp <~ foldW (fun sp ig =>
        forW nEvals (fun sp t =>
          xL <- get bL t ;; xR <- get bR t ;; xE <- get bE t ;;
          v <~ wEval (snd ig) xL xR ;;
          v <~ wmul v xE ;;
          sp <- addTo2 sp (fst ig) t v ;; ret sp) sp)
        (combine (seq 0 (length gates)) gates) sp ;;
      ret (sp, bL, bR, bE))
      (repeat (repeat 0 nEvals) nGate, repeat 0 nEvals, repeat 0 nEvals, repeat 0 nEvals) ;;
    (* 345-351 *)
    foldW (fun res isv =>
      foldW (fun res tv =>
        s <- get staticTablesVals (fst isv) ;;
        v <~ wmul (snd tv) s ;;
        x <- get res (fst tv) ;; res <- set res (fst tv) (x + v) ;; ret res)
        (combine (seq 0 (length (snd isv))) (snd isv)) res)
      (combine (seq 0 (length sp)) sp) (repeat 0 nEvals).

  (** 135-146 GetEvalsOnHPrime *)
  Definition WGetEvalsOnHPrime (p : Prover F) : W (list F) :=
    vals <- mapM (fun tab => get tab 0) (sStatic p) ;;
    WaccumulateEvalsOnHPrime p vals.

  (* ---------------------------------------------------------------- sumcheck/prover.go *)
  (** 113-118 FoldHL *)
  Definition WFoldHL (p : Prover F) (r : F) : W (Prover F) :=
    st <~ mapW (fun tab => WFold tab r) (sStatic p) ;;
    v <~ WFold (sVL p) r ;;
    ret (MkProver v (sVR p) (sEq p) (sGates p) st (dHL p) (dHR p) (dHPrime p)).

  (** 121-126 FoldHR *)
  Definition WFoldHR (p : Prover F) (r : F) : W (Prover F) :=
    st <~ mapW (fun tab => WFold tab r) (sStatic p) ;;
    v <~ WFold (sVR p) r ;;
    ret (MkProver (sVL p) v (sEq p) (sGates p) st (dHL p) (dHR p) (dHPrime p)).

  (** 129-133 FoldHPrime *)
  Definition WFoldHPrime (p : Prover F) (r : F) : W (Prover F) :=
    vr <~ WFold (sVR p) r ;;
    vl <~ WFold (sVL p) r ;;
    e <~ WFold (sEq p) r ;;
    ret (MkProver vl vr e (sGates p) (sStatic p) (dHL p) (dHR p) (dHPrime p)).

  Variable GetChallenge : list F -> F.

  (** One round, and rounds *)
  Definition Wround (evals : Prover F -> W (list F)) (fold : Prover F -> F -> W (Prover F))
      (st : Prover F * list (list F) * list F) : W (Prover F * list (list F) * list F) :=
    let '(p, proof, q) := st in
    e <~ evals p ;;
    c <~ WInterpolateOnRange e ;;
    let r := GetChallenge c in
    p <~ fold p r ;;
    ret (p, proof ++ [c], q ++ [r]).

  Definition Wrounds (k : nat) evals fold (st : Prover F * list (list F) * list F) : W (Prover F * list (list F) * list F) :=
    forW k (fun st _ => Wround evals fold st) st.

  (** 60-110 Prove *)
  Definition WProve (p : Prover F) : W (list (list F) * list F * list F * list F * list F) :=
    let n := length (sEq p) in
    g <- godiv (length (sVR p)) n ;;
    let bN := log2ceil n in
    let bG := log2ceil g in
    '(p, proof, qL) <~ Wrounds bG WGetEvalsOnHL WFoldHL (p, [], []) ;;
    '(p, proof, qR) <~ Wrounds bG WGetEvalsOnHR WFoldHR (p, proof, []) ;;
    '(p, proof, qPrime) <~ Wrounds bN WGetEvalsOnHPrime WFoldHPrime (p, proof, []) ;;
    finalClaims <- finalClaimsOf p ;;
    ret (proof, qPrime, qL, qR, finalClaims).

  (* ---------------------------------------------------------------- sumcheck/verifier.go *)
  (** 21-36: the loop *)
  Fixpoint Wverify_loop (expectedValue : F) (proof : list (list F)) (challenges : list F) : W (option (list F * F)) :=
    match proof with
    | [] => ret (Some (challenges, expectedValue))
    | c :: proof' =>
      actualValue <~ WEvaluatePolynomial c 0 ;;
      evalAtOne <~ WEvaluatePolynomial c 1 ;;
      let actualValue := actualValue + evalAtOne in
      if expectedValue =? actualValue then
        let r := GetChallenge c in
        e <~ WEvaluatePolynomial c r ;;
        Wverify_loop e proof' (challenges ++ [r])
      else ret None
    end.

  (** 14-44 Verify *)
  Definition WVerify (claim : F) (proof : list (list F)) (bN bG : nat) : W (VerifyResult F) :=
    res <~ Wverify_loop claim proof [] ;;
    match res with
    | None => ret Reject
    | Some (challenges, expectedValue) =>
      qL <- slice challenges 0 bG ;;
      qR <- slice challenges bG (2 * bG) ;;
      qPrime <- slice challenges (2 * bG) (length challenges) ;;
      ret (Accept qPrime qL qR expectedValue)
    end.
End Cost.

Arguments WGate : clear implicits.
