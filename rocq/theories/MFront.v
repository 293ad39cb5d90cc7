(** The gadgets under snark/ with the variables of gnark: a variable is a linear expression in wires, Constant, Add and Sub build
    expressions, Mul of a recognised constant scales one, and Mul of two others makes a wire and a constraint.  What gnark does to
    an expression that it has built (merging terms, sorting) and which expressions it recognises as constants is a parameter. *)
From Coq Require Import List Arith Lia Bool.
From Verif Require Import Field Go MHash MGkr MSnark.
Import ListNotations.

Record Frontend (F : Field) := MkFrontend { reduce : lc (F:=F) -> lc (F:=F); constantOf : lc (F:=F) -> option F }.
Arguments MkFrontend {F}. Arguments reduce {F}. Arguments constantOf {F}.

Section Front.
  Context {F : Field}.
  Open Scope F_scope.
  Variable fe : Frontend F.

  Notation Var := (lc (F:=F)).
  Notation M := (MSnark.M (F:=F)).
  Notation "x <-- e ;;; k" := (mbind e (fun x => k)) (at level 60, e at next level, right associativity).
  Notation "' p <-- e ;;; k" := (mbind e (fun p => k)) (at level 60, p pattern, e at next level, right associativity).

  (** the variable of a wire *)
  Definition wire (v : nat) : Var := [(1, v)].
  Definition scale (c : F) (l : Var) : Var := map (fun t => (c * fst t, snd t)) l.

  Definition fConstant (c : F) : M Var := ret (reduce fe [(c, 0%nat)]).
  Definition fAdd (a b : Var) (rest : list Var) : M Var := ret (reduce fe (concat (a :: b :: rest))).
  Definition fSub (a b : Var) : M Var := ret (reduce fe (a ++ scale (- (1)) b)).
  Definition fSubConst (c : F) (b : Var) : M Var := ret (reduce fe ((c, 0%nat) :: scale (- (1)) b)).
  Definition fMul (a b : Var) : M Var :=
    match constantOf fe a with
    | Some c => ret (reduce fe (scale c b))
    | None =>
      match constantOf fe b with
      | Some c => ret (reduce fe (scale c a))
      | None => mbind (newWire a b) (fun w => ret (wire w))
      end
    end.
  Definition fAssertIsEqual (a b : Var) : M unit := fun cs =>
    Some (tt, MkCS (nbWires cs) (gates cs) (assertions cs ++ [MkR1c a oneLC b])).

  (** ** snark/polynomial/eq.go *)

  (** eq.go:9-15 UnivariateEqEval *)
  Definition FUnivariateEqEval (q h : Var) : M Var :=
    res <-- fConstant 1 ;;;
    res <-- fSub res q ;;;
    res <-- fSub res h ;;;
    two <-- fConstant (1 + 1) ;;;
    qh <-- fMul q h ;;;
    t <-- fMul two qh ;;;
    fAdd res t [].

  (** eq.go:18-25 EqEval *)
  Definition FEqEval (qPrime hPrime : list Var) : M Var :=
    res <-- fConstant 1 ;;;
    mfold (fun res i =>
      q <-- lift (get qPrime i) ;;;
      h <-- lift (get hPrime i) ;;;
      e <-- FUnivariateEqEval q h ;;;
      fMul res e) (seq 0 (length qPrime)) res.

  (** ** snark/polynomial/multilinear.go *)

  (** multilinear.go:54-67 Fold *)
  Definition FFold (table : list Var) (x : Var) : M (list Var) :=
    let k := (length table / 2)%nat in
    table <-- mfold (fun table i =>
      top <-- lift (get table (i + k)) ;;;
      bot <-- lift (get table i) ;;;
      tmpLinExp <-- fSub top bot ;;;
      tmp <-- fMul tmpLinExp x ;;;
      bot <-- lift (get table i) ;;;
      v <-- fAdd bot tmp [] ;;;
      lift (set table i v)) (seq 0 k) table ;;;
    lift (slice table 0 k).

  (** multilinear.go:70-77 Eval *)
  Definition FEval (table xs : list Var) : M Var :=
    f <-- mfold FFold xs table ;;;
    lift (get f 0).

  (** multilinear.go:82-99 EvalMixed *)
  Definition FEvalMixed (table qL qR qPrime : list Var) : M (Var * Var) :=
    let nChunks := (2 ^ length qL)%nat in
    chunkSize <-- lift (godiv (length table) nChunks) ;;;
    intermediateTable <-- mmap (fun i =>
      t <-- lift (slice table (i * chunkSize) ((i + 1) * chunkSize)) ;;;
      FEval t qPrime) (seq 0 nChunks) ;;;
    vL <-- FEval intermediateTable qL ;;;
    vR <-- FEval intermediateTable qR ;;;
    ret (vL, vR).

  (** ** snark/polynomial/univariate.go *)

  (** univariate.go:36-49 Eval *)
  Definition FUniEval (coeffs : list Var) (x : Var) : M Var :=
    res <-- fConstant 0 ;;;
    aux <-- fConstant 0 ;;;
    '(_, aux) <-- mfold (fun '(res, aux) i =>
      res <-- (if (i =? length coeffs - 1)%nat then ret res else fMul aux x) ;;;
      c <-- lift (get coeffs i) ;;;
      aux <-- fAdd res c [] ;;;
      ret (res, aux)) (rev (seq 0 (length coeffs))) (res, aux) ;;;
    one <-- fConstant 1 ;;;
    fMul aux one.

  (** univariate.go:52-63 ZeroAndOne *)
  Definition FZeroAndOne (coeffs : list Var) : M Var :=
    c0 <-- lift (get coeffs 0) ;;;
    rest <-- lift (slice coeffs 1 (length coeffs)) ;;;
    fAdd c0 c0 rest.

  (** ** snark/hash/mimc.go *)
  Variable Arks : list F.

  (** mimc.go:14-22: one round *)
  Definition FMimcRound (m state : Var) (i : nat) : M Var :=
    ark <-- lift (get Arks i) ;;;
    k <-- fConstant ark ;;;
    state <-- fAdd m state [k] ;;;
    tmp <-- fMul state state ;;;
    tmp <-- fMul state tmp ;;;
    tmp <-- fMul tmp tmp ;;;
    fMul state tmp.

  (** mimc.go:10-27 MimcHash *)
  Definition FMimcHash (stream : list Var) : M Var :=
    state <-- fConstant 0 ;;;
    mfold (fun state m =>
      let oldState := state in
      state <-- mfold (FMimcRound m) (seq 0 MimcRounds) state ;;;
      fAdd state oldState [m]) stream state.

  (** ** snark/sumcheck/sumcheck.go *)

  (** sumcheck.go:51-72 AssertValid *)
  Definition FSumcheckAssertValid (HPolys : list (list Var)) (initialClaim : Var) (bG : nat) : M (list Var * list Var * list Var * Var) :=
    '(hs, claimCurr) <-- mfold (fun '(hs, claimCurr) poly =>
      zeroAndOne <-- FZeroAndOne poly ;;;
      _ <-- fAssertIsEqual zeroAndOne claimCurr ;;;
      h <-- FMimcHash poly ;;;
      claimCurr <-- FUniEval poly h ;;;
      ret (hs ++ [h], claimCurr)) HPolys ([], initialClaim) ;;;
    hL <-- lift (slice hs 0 bG) ;;;
    hR <-- lift (slice hs bG (2 * bG)) ;;;
    hPrime <-- lift (slice hs (2 * bG) (length hs)) ;;;
    ret (hL, hR, hPrime, claimCurr).

  (** ** snark/gkr *)

  (** gate.go:9 and static.go:10 *)
  Definition FGate := Var -> Var -> M Var.
  Definition FTableGenerator := list Var -> M (list Var).

  (** gate.go:12-21 CipherGate *)
  Definition FCipherGate (ark : F) : FGate := fun vL vR =>
    k <-- fConstant ark ;;;
    tmp <-- fAdd vR k [] ;;;
    cipher <-- fMul tmp tmp ;;;
    cipher <-- fMul cipher tmp ;;;
    cipher <-- fMul cipher cipher ;;;
    cipher <-- fMul cipher tmp ;;;
    fAdd cipher vL [].

  (** gate.go:24-28 CopyGate *)
  Definition FCopyGate : FGate := fun vL vR => ret vL.

  (** circuit.go:16-21 Layer; the degrees are used by AllocateProof only *)
  Record FLayer := MkFLayer { fBG : nat; fGates : list FGate; fTables : list FTableGenerator }.

  (** circuit.go:24-37 Combine *)
  Definition FCombine (l : FLayer) (q qPrime hL hR hPrime : list Var) (vL vR : Var) : M Var :=
    res <-- fConstant 0 ;;;
    let hLhR := hL ++ hR in
    res <-- mfold (fun res i =>
      gen <-- lift (get (fTables l) i) ;;;
      tab <-- gen q ;;;
      t <-- FEval tab hLhR ;;;
      gate <-- lift (get (fGates l) i) ;;;
      g <-- gate vL vR ;;;
      p <-- fMul t g ;;;
      fAdd res p []) (seq 0 (length (fGates l))) res ;;;
    e <-- FEqEval qPrime hPrime ;;;
    fMul res e.

  (** circuit.go:41-59 CombineWithLinearComb *)
  Definition FCombineWithLinearComb (l : FLayer) (qL qR qPrime hL hR hPrime : list Var) (lambdaL lambdaR vL vR : Var) : M Var :=
    res <-- fConstant 0 ;;;
    let hLhR := hL ++ hR in
    res <-- mfold (fun res i =>
      gen <-- lift (get (fTables l) i) ;;;
      tabL <-- gen qL ;;;
      tabR <-- gen qR ;;;
      tL <-- FEval tabL hLhR ;;;
      aL <-- fMul lambdaL tL ;;;
      tR <-- FEval tabR hLhR ;;;
      aR <-- fMul lambdaR tR ;;;
      tabEval <-- fAdd aL aR [] ;;;
      gate <-- lift (get (fGates l) i) ;;;
      g <-- gate vL vR ;;;
      p <-- fMul tabEval g ;;;
      fAdd res p []) (seq 0 (length (fGates l))) res ;;;
    e <-- FEqEval qPrime hPrime ;;;
    fMul res e.

  (** mimc.go:49-56 GetCopyTable *)
  Definition FGetCopyTable : FTableGenerator := fun Q =>
    z0 <-- fConstant 0 ;;;
    z1 <-- fConstant 0 ;;;
    q <-- lift (get Q 0) ;;;
    z3 <-- fConstant 0 ;;;
    ret [z0; z1; q; z3].

  (** mimc.go:59-66 GetCipherTable *)
  Definition FGetCipherTable : FTableGenerator := fun Q =>
    z0 <-- fConstant 0 ;;;
    z1 <-- fConstant 0 ;;;
    q <-- lift (get Q 0) ;;;
    c <-- fSubConst 1 q ;;;
    z3 <-- fConstant 0 ;;;
    ret [z0; z1; c; z3].

  (** mimc.go:69-76 GetFinalCipherTable *)
  Definition FGetFinalCipherTable : FTableGenerator := fun Q =>
    z0 <-- fConstant 0 ;;;
    z1 <-- fConstant 0 ;;;
    c <-- fConstant 1 ;;;
    z3 <-- fConstant 0 ;;;
    ret [z0; z1; c; z3].

  (** mimc.go:11-46 CreateMimcCircuit *)
  Definition FCreateMimcCircuit : option (list FLayer) :=
    let nLayers := MimcRounds in
    layers <- mapM (fun i =>
      ark <- get Arks i ;;
      Some (MkFLayer 1 [FCipherGate ark; FCopyGate] [FGetCipherTable; FGetCopyTable])) (seq 0 (nLayers - 1)) ;;
    ark <- get Arks (nLayers - 1) ;;
    Some (layers ++ [MkFLayer 1 [FCipherGate ark] [FGetFinalCipherTable]]).

  (** proof.go:72-92: the loop body *)
  Definition FAssertLayer (c : list FLayer) (p : SProof Var) (st : list Var * list Var * list Var) (layer : nat)
    : M (list Var * list Var * list Var) :=
    let '(hL, hR, hPrime) := st in
    lambdaL <-- fConstant 1 ;;;
    cl <-- lift (get (sLeft p) (layer + 1)) ;;;
    cr <-- lift (get (sRight p) (layer + 1)) ;;;
    lambdaR <-- FMimcHash [cl; cr] ;;;
    t <-- fMul lambdaR cr ;;;
    claim <-- fAdd cl t [] ;;;
    let '(qL, qR, qPrime) := (hL, hR, hPrime) in
    sp <-- lift (get (sSumchecks p) layer) ;;;
    l <-- lift (get c layer) ;;;
    '(hL, hR, hPrime, expectedTotalClaim) <-- FSumcheckAssertValid sp claim (fBG l) ;;;
    vl <-- lift (get (sLeft p) layer) ;;;
    vr <-- lift (get (sRight p) layer) ;;;
    actualTotalClaim <-- FCombineWithLinearComb l qL qR qPrime hL hR hPrime lambdaL lambdaR vl vr ;;;
    _ <-- fAssertIsEqual expectedTotalClaim actualTotalClaim ;;;
    ret (hL, hR, hPrime).

  (** proof.go:51-99 AssertValid *)
  Definition FGkrAssertValid (p : SProof Var) (c : list FLayer) (qInitial qPrimeInitial vInput vOutput : list Var) : M unit :=
    let last := (MimcRounds - 1)%nat in
    claim <-- FEval vOutput (qInitial ++ qPrimeInitial) ;;;
    sp <-- lift (get (sSumchecks p) last) ;;;
    l <-- lift (get c last) ;;;
    '(hL, hR, hPrime, expectedTotalClaim) <-- FSumcheckAssertValid sp claim (fBG l) ;;;
    vl <-- lift (get (sLeft p) last) ;;;
    vr <-- lift (get (sRight p) last) ;;;
    actualTotalClaim <-- FCombine l qInitial qPrimeInitial hL hR hPrime vl vr ;;;
    _ <-- fAssertIsEqual expectedTotalClaim actualTotalClaim ;;;
    '(hL, hR, hPrime) <-- mfold (FAssertLayer c p) (rev (seq 0 last)) (hL, hR, hPrime) ;;;
    actualVL <-- lift (get (sLeft p) 0) ;;;
    actualVR <-- lift (get (sRight p) 0) ;;;
    '(expectedVL, expectedVR) <-- FEvalMixed vInput hL hR hPrime ;;;
    _ <-- fAssertIsEqual expectedVL actualVL ;;;
    fAssertIsEqual expectedVR actualVR.

  (** the proof whose variables are the given wires *)
  Definition wire_proof (p : SProof nat) : SProof Var := MkSProof (map (map (map wire)) (sSumchecks p)) (map wire (sLeft p)) (map wire (sRight p)).

  (** ** Two frontends: one that rewrites nothing and recognises no constant; one that merges the terms of a wire, drops those with
      coefficient zero, and takes an expression without other wires than 0 for a constant *)
  Definition plain : Frontend F := MkFrontend (fun l => l) (fun _ => None).
  Fixpoint addTerm (t : F * nat) (l : Var) : Var :=
    match l with
    | [] => [t]
    | u :: l => if (snd t =? snd u)%nat then (fst t + fst u, snd u) :: l else u :: addTerm t l
    end.
  Definition merge (l : Var) : Var := filter (fun t => negb (feqb (fst t) 0)) (fold_right addTerm [] l).
  Definition isConstant (l : Var) : option F :=
    if forallb (fun t => (snd t =? 0)%nat) l then Some (fold_right (fun t s => fst t + s) 0 l) else None.
  Definition folding : Frontend F := MkFrontend merge isConstant.
End Front.
Arguments FLayer : clear implicits.
