(** Model of the packages under snark/: polynomial/{eq,multilinear,univariate}.go, hash/mimc.go,
    sumcheck/sumcheck.go, gkr/{circuit,gate,mimc,proof,static}.go.

    The constraint system of gnark (frontend.ConstraintSystem, v0.3.6, not part of the repository) is
    modelled by its documented behaviour: a variable is a wire number, wire 0 is the constant one, and
    every call of Constant, Add, Sub and Mul allocates one new internal wire together with one
    rank-1 constraint [L * R = O] that fixes its value ("gates"), while AssertIsEqual adds a
    rank-1 constraint without a new wire ("assertions").  A witness gives a value to every wire.
    gnark may share or fold some of these constraints; that changes their number only (C93, MFront.v). *)
From Coq Require Import List Arith Lia Bool.
From Verif Require Import Field Go MHash MGkr.
Import ListNotations.

(** snark/sumcheck/sumcheck.go:13-18 and snark/gkr/proof.go:17-21 Proof: polynomials by their
    coefficients, claims.  [V]: wires in a circuit, optional values in a witness structure. *)
Record SProof (V : Type) := MkSProof {
  sSumchecks : list (list (list V)); sLeft : list V; sRight : list V }.
Arguments MkSProof {V}. Arguments sSumchecks {V}. Arguments sLeft {V}. Arguments sRight {V}.

Section Snark.
  Context {F : Field}.
  Open Scope F_scope.

  (** ** The constraint system *)

  (** linear combination of wires *)
  Definition lc := list (F * nat).
  Record r1c := MkR1c { rL : lc; rR : lc; rO : lc }.
  Record CS := MkCS { nbWires : nat; gates : list r1c; assertions : list r1c }.

  (** A gadget: takes the constraint system, may panic, returns a result and the new system. *)
  Definition M (A : Type) := CS -> option (A * CS).
  Definition ret {A} (a : A) : M A := fun cs => Some (a, cs).
  Definition mbind {A B} (m : M A) (k : A -> M B) : M B := fun cs => '(a, cs) <- m cs ;; k a cs.
  (** an index expression or slice expression that may panic *)
  Definition lift {A} (o : option A) : M A := fun cs => a <- o ;; Some (a, cs).
  (** a loop over the elements of a list *)
  Fixpoint mfold {S A} (f : S -> A -> M S) (l : list A) (x : S) : M S :=
    match l with
    | [] => ret x
    | a :: l => mbind (f x a) (mfold f l)
    end.
  (** a loop that fills a fresh array *)
  Fixpoint mmap {A B} (f : A -> M B) (l : list A) : M (list B) :=
    match l with
    | [] => ret []
    | a :: l => mbind (f a) (fun b => mbind (mmap f l) (fun bs => ret (b :: bs)))
    end.

  Notation "x <-- e ;;; k" := (mbind e (fun x => k)) (at level 60, e at next level, right associativity).
  Notation "' p <-- e ;;; k" := (mbind e (fun p => k)) (at level 60, p pattern, e at next level, right associativity).

  (** new internal wire [w] with the constraint [L * R = w] *)
  Definition newWire (L R : lc) : M nat := fun cs =>
    let w := nbWires cs in
    Some (w, MkCS (S w) (gates cs ++ [MkR1c L R [(1, w)]]) (assertions cs)).
  Definition oneLC : lc := [(1, 0%nat)].
  Definition cConstant (c : F) : M nat := newWire [(c, 0%nat)] oneLC.
  Definition cAdd (a b : nat) (rest : list nat) : M nat := newWire (map (fun v => (1, v)) (a :: b :: rest)) oneLC.
  Definition cSub (a b : nat) : M nat := newWire [(1, a); (- (1), b)] oneLC.
  (** [cs.Sub(c, b)] for a constant [c] *)
  Definition cSubConst (c : F) (b : nat) : M nat := newWire [(c, 0%nat); (- (1), b)] oneLC.
  Definition cMul (a b : nat) : M nat := newWire [(1, a)] [(1, b)].
  Definition cAssertIsEqual (a b : nat) : M unit := fun cs =>
    Some (tt, MkCS (nbWires cs) (gates cs) (assertions cs ++ [MkR1c [(1, a)] oneLC [(1, b)]])).

  (** ** snark/polynomial/eq.go *)

  (** eq.go:9-15 UnivariateEqEval *)
  Definition UnivariateEqEval (q h : nat) : M nat :=
    res <-- cConstant 1 ;;;
    res <-- cSub res q ;;;
    res <-- cSub res h ;;;
    two <-- cConstant (1 + 1) ;;;
    qh <-- cMul q h ;;;
    t <-- cMul two qh ;;;
    cAdd res t [].

  (** eq.go:18-25 EqEval *)
  Definition SEqEval (qPrime hPrime : list nat) : M nat :=
    res <-- cConstant 1 ;;;
    mfold (fun res i =>
      q <-- lift (get qPrime i) ;;;
      h <-- lift (get hPrime i) ;;;
      e <-- UnivariateEqEval q h ;;;
      cMul res e) (seq 0 (length qPrime)) res.

  (** ** snark/polynomial/multilinear.go *)

  (** multilinear.go:54-67 Fold: the new value of m.Table *)
  Definition SFold (table : list nat) (x : nat) : M (list nat) :=
    let k := (length table / 2)%nat in
    table <-- mfold (fun table i =>
      top <-- lift (get table (i + k)) ;;;
      bot <-- lift (get table i) ;;;
      tmpLinExp <-- cSub top bot ;;;
      tmp <-- cMul tmpLinExp x ;;;
      bot <-- lift (get table i) ;;;
      v <-- cAdd bot tmp [] ;;;
      lift (set table i v)) (seq 0 k) table ;;;
    lift (slice table 0 k).

  (** multilinear.go:70-77 Eval; the folds work on a deep copy *)
  Definition SEval (table xs : list nat) : M nat :=
    f <-- mfold SFold xs table ;;;
    lift (get f 0).

  (** multilinear.go:82-99 EvalMixed; Eval copies the slices it is given *)
  Definition SEvalMixed (table qL qR qPrime : list nat) : M (nat * nat) :=
    let nChunks := (2 ^ length qL)%nat in
    chunkSize <-- lift (godiv (length table) nChunks) ;;;
    intermediateTable <-- mmap (fun i =>
      t <-- lift (slice table (i * chunkSize) ((i + 1) * chunkSize)) ;;;
      SEval t qPrime) (seq 0 nChunks) ;;;
    vL <-- SEval intermediateTable qL ;;;
    vR <-- SEval intermediateTable qR ;;;
    ret (vL, vR).

  (** ** snark/polynomial/univariate.go *)

  (** univariate.go:36-49 Eval; the state is (res, aux) *)
  Definition SUniEval (coeffs : list nat) (x : nat) : M nat :=
    res <-- cConstant 0 ;;;
    aux <-- cConstant 0 ;;;
    '(_, aux) <-- mfold (fun '(res, aux) i =>
      res <-- (if (i =? length coeffs - 1)%nat then ret res else cMul aux x) ;;;
      c <-- lift (get coeffs i) ;;;
      aux <-- cAdd res c [] ;;;
      ret (res, aux)) (rev (seq 0 (length coeffs))) (res, aux) ;;;
    one <-- cConstant 1 ;;;
    cMul aux one.

  (** univariate.go:52-63 ZeroAndOne *)
  Definition SZeroAndOne (coeffs : list nat) : M nat :=
    c0 <-- lift (get coeffs 0) ;;;
    rest <-- lift (slice coeffs 1 (length coeffs)) ;;;
    cAdd c0 c0 rest.

  (** ** snark/hash/mimc.go *)
  Variable Arks : list F.

  (** mimc.go:14-22: one round *)
  Definition SMimcRound (m state : nat) (i : nat) : M nat :=
    ark <-- lift (get Arks i) ;;;
    k <-- cConstant ark ;;;
    state <-- cAdd m state [k] ;;;
    tmp <-- cMul state state ;;;
    tmp <-- cMul state tmp ;;;
    tmp <-- cMul tmp tmp ;;;
    cMul state tmp.

  (** mimc.go:10-27 MimcHash *)
  Definition SMimcHash (stream : list nat) : M nat :=
    state <-- cConstant 0 ;;;
    mfold (fun state m =>
      let oldState := state in
      state <-- mfold (SMimcRound m) (seq 0 MimcRounds) state ;;;
      cAdd state oldState [m]) stream state.

  (** ** snark/sumcheck/sumcheck.go *)

  (** sumcheck.go:51-72 AssertValid: (hL, hR, hPrime, lastClaim) *)
  Definition SSumcheckAssertValid (HPolys : list (list nat)) (initialClaim bG : nat) : M (list nat * list nat * list nat * nat) :=
    '(hs, claimCurr) <-- mfold (fun '(hs, claimCurr) poly =>
      zeroAndOne <-- SZeroAndOne poly ;;;
      _ <-- cAssertIsEqual zeroAndOne claimCurr ;;;
      h <-- SMimcHash poly ;;;
      claimCurr <-- SUniEval poly h ;;;
      ret (hs ++ [h], claimCurr)) HPolys ([], initialClaim) ;;;
    hL <-- lift (slice hs 0 bG) ;;;
    hR <-- lift (slice hs bG (2 * bG)) ;;;
    hPrime <-- lift (slice hs (2 * bG) (length hs)) ;;;
    ret (hL, hR, hPrime, claimCurr).

  (** sumcheck.go:21-36 AllocateProof: the numbers of coefficients; a fresh variable has no value *)
  Definition SAllocateSumcheck (bN bG degHL degHR degHPrime : nat) : list (list (option F)) :=
    repeat (repeat None (degHL + 1)) bG ++ repeat (repeat None (degHR + 1)) bG ++ repeat (repeat None (degHPrime + 1)) bN.

  (** frontend.Variable.Assign panics on a variable that has a value *)
  Definition assignVar (v : option F) (x : F) : option (option F) :=
    match v with None => Some (Some x) | Some _ => None end.

  (** univariate.go:26-33 Assign (the new coefficients) *)
  Definition SUniAssign (u : list (option F)) (coeffs : list F) : option (list (option F)) :=
    if (length coeffs =? length u)%nat then
      forN (length coeffs) (fun u i => c <- get coeffs i ;; v <- get u i ;; v <- assignVar v c ;; set u i v) u
    else None.

  (** sumcheck.go:39-48 Assign *)
  Definition SSumcheckAssign (p : list (list (option F))) (proof : list (list F)) : option (list (list (option F))) :=
    if (length proof =? length p)%nat then
      forN (length proof) (fun p i => poly <- get proof i ;; u <- get p i ;; u <- SUniAssign u poly ;; set p i u) p
    else None.

  (** ** snark/gkr *)

  (** gate.go:9 and static.go:10 *)
  Definition SGate := nat -> nat -> M nat.
  Definition StaticTableGenerator := list nat -> M (list nat).

  (** gate.go:12-21 CipherGate *)
  Definition SCipherGate (ark : F) : SGate := fun vL vR =>
    k <-- cConstant ark ;;;
    tmp <-- cAdd vR k [] ;;;
    cipher <-- cMul tmp tmp ;;;
    cipher <-- cMul cipher tmp ;;;
    cipher <-- cMul cipher cipher ;;;
    cipher <-- cMul cipher tmp ;;;
    cAdd cipher vL [].

  (** gate.go:24-28 CopyGate *)
  Definition SCopyGate : SGate := fun vL vR => ret vL.

  (** circuit.go:16-21 Layer *)
  Record SLayer := MkSLayer { sDegHL : nat; sDegHR : nat; sDegHPrime : nat; sBG : nat;
    sGates : list SGate; sTables : list StaticTableGenerator }.

  (** circuit.go:24-37 Combine *)
  Definition SCombine (l : SLayer) (q qPrime hL hR hPrime : list nat) (vL vR : nat) : M nat :=
    res <-- cConstant 0 ;;;
    let hLhR := hL ++ hR in
    res <-- mfold (fun res i =>
      gen <-- lift (get (sTables l) i) ;;;
      tab <-- gen q ;;;
      t <-- SEval tab hLhR ;;;
      gate <-- lift (get (sGates l) i) ;;;
      g <-- gate vL vR ;;;
      p <-- cMul t g ;;;
      cAdd res p []) (seq 0 (length (sGates l))) res ;;;
    e <-- SEqEval qPrime hPrime ;;;
    cMul res e.

  (** circuit.go:41-59 CombineWithLinearComb *)
  Definition SCombineWithLinearComb (l : SLayer) (qL qR qPrime hL hR hPrime : list nat) (lambdaL lambdaR vL vR : nat) : M nat :=
    res <-- cConstant 0 ;;;
    let hLhR := hL ++ hR in
    res <-- mfold (fun res i =>
      gen <-- lift (get (sTables l) i) ;;;
      tabL <-- gen qL ;;;
      tabR <-- gen qR ;;;
      tL <-- SEval tabL hLhR ;;;
      aL <-- cMul lambdaL tL ;;;
      tR <-- SEval tabR hLhR ;;;
      aR <-- cMul lambdaR tR ;;;
      tabEval <-- cAdd aL aR [] ;;;
      gate <-- lift (get (sGates l) i) ;;;
      g <-- gate vL vR ;;;
      p <-- cMul tabEval g ;;;
      cAdd res p []) (seq 0 (length (sGates l))) res ;;;
    e <-- SEqEval qPrime hPrime ;;;
    cMul res e.

  (** mimc.go:49-56 GetCopyTable *)
  Definition GetCopyTable : StaticTableGenerator := fun Q =>
    z0 <-- cConstant 0 ;;;
    z1 <-- cConstant 0 ;;;
    q <-- lift (get Q 0) ;;;
    z3 <-- cConstant 0 ;;;
    ret [z0; z1; q; z3].

  (** mimc.go:59-66 GetCipherTable *)
  Definition GetCipherTable : StaticTableGenerator := fun Q =>
    z0 <-- cConstant 0 ;;;
    z1 <-- cConstant 0 ;;;
    q <-- lift (get Q 0) ;;;
    c <-- cSubConst 1 q ;;;
    z3 <-- cConstant 0 ;;;
    ret [z0; z1; c; z3].

  (** mimc.go:69-76 GetFinalCipherTable *)
  Definition GetFinalCipherTable : StaticTableGenerator := fun Q =>
    z0 <-- cConstant 0 ;;;
    z1 <-- cConstant 0 ;;;
    c <-- cConstant 1 ;;;
    z3 <-- cConstant 0 ;;;
    ret [z0; z1; c; z3].

  (** mimc.go:11-46 CreateMimcCircuit: the layers; BGOut = 0 *)
  Definition SCreateMimcCircuit : option (list SLayer) :=
    let nLayers := MimcRounds in
    layers <- mapM (fun i =>
      ark <- get Arks i ;;
      Some (MkSLayer 2 8 8 1 [SCipherGate ark; SCopyGate] [GetCipherTable; GetCopyTable])) (seq 0 (nLayers - 1)) ;;
    ark <- get Arks (nLayers - 1) ;;
    Some (layers ++ [MkSLayer 2 8 8 1 [SCipherGate ark] [GetFinalCipherTable]]).

  (** proof.go:24-39 AllocateProof *)
  Definition SAllocateProof (bN : nat) (c : list SLayer) : SProof (option F) :=
    MkSProof (map (fun l => SAllocateSumcheck bN (sBG l) (sDegHL l) (sDegHR l) (sDegHPrime l)) c)
      (repeat None (length c)) (repeat None (length c)).

  (** proof.go:42-48 Assign *)
  Definition SAssign (p : SProof (option F)) (proof : Proof F) : option (SProof (option F)) :=
    forN (length (sSumchecks p)) (fun p k =>
      sp <- get (sSumchecks p) k ;;
      nsp <- get (SumcheckProofs proof) k ;;
      sp <- SSumcheckAssign sp nsp ;;
      sps <- set (sSumchecks p) k sp ;;
      l <- get (sLeft p) k ;;
      nl <- get (ClaimsLeft proof) k ;;
      l <- assignVar l nl ;;
      ls <- set (sLeft p) k l ;;
      r <- get (sRight p) k ;;
      nr <- get (ClaimsRight proof) k ;;
      r <- assignVar r nr ;;
      rs <- set (sRight p) k r ;;
      Some (MkSProof sps ls rs)) p.

  (** multilinear.go:16-19 AllocateMultilinear *)
  Definition SAllocateMultilinear (nVars : nat) : list (option F) := repeat None (2 ^ nVars).

  (** multilinear.go:22-29 Assign, for field elements *)
  Definition SMultiAssign (table : list (option F)) (values : list F) : option (list (option F)) :=
    if (length values =? length table)%nat then
      forN (length values) (fun table i => c <- get values i ;; v <- get table i ;; v <- assignVar v c ;; set table i v) table
    else None.

  (** multilinear.go:32-39 AssignFromChunkedBKT *)
  Definition SAssignFromChunkedBKT (table : list (option F)) (values : list (list F)) : option (list (option F)) :=
    let nChunks := length values in
    forN nChunks (fun table b =>
      vb <- get values b ;;
      forN (length vb) (fun table i =>
        x <- get vb i ;;
        v <- get table (b + i * nChunks) ;;
        v <- assignVar v x ;;
        set table (b + i * nChunks) v) table) table.

  (** proof.go:72-92: the loop body for [layer], with the current hL, hR, hPrime *)
  Definition SAssertLayer (c : list SLayer) (p : SProof nat) (st : list nat * list nat * list nat) (layer : nat)
    : M (list nat * list nat * list nat) :=
    let '(hL, hR, hPrime) := st in
    lambdaL <-- cConstant 1 ;;;
    cl <-- lift (get (sLeft p) (layer + 1)) ;;;
    cr <-- lift (get (sRight p) (layer + 1)) ;;;
    lambdaR <-- SMimcHash [cl; cr] ;;;
    t <-- cMul lambdaR cr ;;;
    claim <-- cAdd cl t [] ;;;
    let '(qL, qR, qPrime) := (hL, hR, hPrime) in
    sp <-- lift (get (sSumchecks p) layer) ;;;
    l <-- lift (get c layer) ;;;
    '(hL, hR, hPrime, expectedTotalClaim) <-- SSumcheckAssertValid sp claim (sBG l) ;;;
    vl <-- lift (get (sLeft p) layer) ;;;
    vr <-- lift (get (sRight p) layer) ;;;
    actualTotalClaim <-- SCombineWithLinearComb l qL qR qPrime hL hR hPrime lambdaL lambdaR vl vr ;;;
    _ <-- cAssertIsEqual expectedTotalClaim actualTotalClaim ;;;
    ret (hL, hR, hPrime).

  (** proof.go:51-99 AssertValid *)
  Definition SGkrAssertValid (p : SProof nat) (c : list SLayer) (qInitial qPrimeInitial vInput vOutput : list nat) : M unit :=
    let last := (MimcRounds - 1)%nat in
    claim <-- SEval vOutput (qInitial ++ qPrimeInitial) ;;;
    sp <-- lift (get (sSumchecks p) last) ;;;
    l <-- lift (get c last) ;;;
    '(hL, hR, hPrime, expectedTotalClaim) <-- SSumcheckAssertValid sp claim (sBG l) ;;;
    vl <-- lift (get (sLeft p) last) ;;;
    vr <-- lift (get (sRight p) last) ;;;
    actualTotalClaim <-- SCombine l qInitial qPrimeInitial hL hR hPrime vl vr ;;;
    _ <-- cAssertIsEqual expectedTotalClaim actualTotalClaim ;;;
    '(hL, hR, hPrime) <-- mfold (SAssertLayer c p) (rev (seq 0 last)) (hL, hR, hPrime) ;;;
    actualVL <-- lift (get (sLeft p) 0) ;;;
    actualVR <-- lift (get (sRight p) 0) ;;;
    '(expectedVL, expectedVR) <-- SEvalMixed vInput hL hR hPrime ;;;
    _ <-- cAssertIsEqual expectedVL actualVL ;;;
    cAssertIsEqual expectedVR actualVR.

  (** frontend.Compile gives the variables of a circuit structure the wires from 1 on, in order: a
      list of variables from wire [s] on, a list of lists, a list of lists of lists. *)
  Definition wires1 {V} (s : nat) (l : list V) : list nat := seq s (length l).
  Fixpoint wires2 {V} (s : nat) (l : list (list V)) : list (list nat) :=
    match l with [] => [] | x :: l => wires1 s x :: wires2 (s + length x) l end.
  Fixpoint wires3 {V} (s : nat) (l : list (list (list V))) : list (list (list nat)) :=
    match l with [] => [] | x :: l => wires2 s x :: wires3 (s + length (concat x)) l end.

  (** snark/gkr/mimc_test.go:19-38 GKRMimcTestCircuit and AllocateGKRMimcTestCircuit, compiled: the
      constraint system with the variables only, Proof, QInitialprime, VInput, VOutput.  QInitial is empty. *)
  Definition AllocateGKRMimcTestCircuit (bN : nat) (c : list SLayer) : CS * (SProof nat * list nat * list nat * list nat) :=
    let p := SAllocateProof bN c in
    let s1 := (1 + length (concat (concat (sSumchecks p))))%nat in
    let s2 := (s1 + length (sLeft p))%nat in
    let s3 := (s2 + length (sRight p))%nat in
    let s4 := (s3 + bN)%nat in
    let s5 := (s4 + length (SAllocateMultilinear (bN + 1)))%nat in
    let s6 := (s5 + length (SAllocateMultilinear bN))%nat in
    (MkCS s6 [] [],
     (MkSProof (wires3 1 (sSumchecks p)) (wires1 s1 (sLeft p)) (wires1 s2 (sRight p)),
      seq s3 bN, wires1 s4 (SAllocateMultilinear (bN + 1)), wires1 s5 (SAllocateMultilinear bN))).
End Snark.

Arguments CS : clear implicits.
Arguments r1c : clear implicits.
Arguments SLayer : clear implicits.
