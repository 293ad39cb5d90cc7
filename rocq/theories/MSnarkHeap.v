(** Memory-level model of the packages under snark/: the tables, points, polynomials, claims and challenges are slices of
    one memory of frontend.Variable, a cell holding the number of its wire (0 for a variable without one).  [append] has
    Go's meaning, see MVerHeap.v.  The constraint system is a second part of the state.  Gates, static table generators and
    the functions that only read their slices (MimcHash, Univariate.Eval, ZeroAndOne, EqEval) are those of MSnark.v, applied
    to the values read from memory. *)
From Coq Require Import List Arith.
From Verif Require Import Field Go MHash MHeap MGkrHeap MSnark SpecSnarkHeap.
Import ListNotations.
Local Open Scope bool_scope.

(** [s[i]], [s[i] = v] *)
Definition vget (m : list nat) (s : Slice) (i : nat) : option nat := if i <? slen s then get m (base s + i) else None.
Definition vset (m : list nat) (s : Slice) (i v : nat) : option (list nat) := if i <? slen s then set m (base s + i) v else None.

(** [vs] written at address [a] and the following ones *)
Fixpoint vwrite (m : list nat) (a : nat) (vs : list nat) : option (list nat) :=
  match vs with
  | [] => Some m
  | v :: vs => m <- set m a v ;; vwrite m (S a) vs
  end.

Section Snark.
  Context {F : Field}.
  (** the capacity of a slice that append has to allocate, see MVerHeap.v *)
  Variable grow : nat -> nat -> nat.
  Variable Arks : list F.

  Definition HM (A : Type) := list nat -> CS F -> option (A * list nat * CS F).
  Definition hret {A} (a : A) : HM A := fun m cs => Some (a, m, cs).
  Definition hbind {A B} (h : HM A) (k : A -> HM B) : HM B := fun m cs => '(a, m, cs) <- h m cs ;; k a m cs.
  Notation "x <~ e ;; k" := (hbind e (fun x => k)) (at level 60, e at next level, right associativity).
  Notation "' p <~ e ;; k" := (hbind e (fun p => k)) (at level 60, p pattern, e at next level, right associativity).

  (** a gadget that does not use the memory; an expression that may panic *)
  Definition gadget {A} (g : M (F:=F) A) : HM A := fun m cs => '(a, cs) <- g cs ;; Some (a, m, cs).
  Definition hlift {A} (o : option A) : HM A := fun m cs => a <- o ;; Some (a, m, cs).
  Fixpoint hfold {S A} (f : S -> A -> HM S) (l : list A) (x : S) : HM S :=
    match l with
    | [] => hret x
    | a :: l => hbind (f x a) (hfold f l)
    end.
  (** [s[i]], [s[i] = v], the values of [s], [make([]frontend.Variable, n)] *)
  Definition load (s : Slice) (i : nat) : HM nat := fun m cs => v <- vget m s i ;; Some (v, m, cs).
  Definition store (s : Slice) (i v : nat) : HM unit := fun m cs => m <- vset m s i v ;; Some (tt, m, cs).
  Definition values (s : Slice) : HM (list nat) := fun m cs => Some (vtab m s, m, cs).
  Definition make (n : nat) : HM Slice := fun m cs => Some (MkSlice (length m) n n, m ++ repeat 0 n, cs).
  (** [[]frontend.Variable{...}] *)
  Definition literal (vs : list nat) : HM Slice := fun m cs => Some (MkSlice (length m) (length vs) (length vs), m ++ vs, cs).
  (** [append(s, src...)] *)
  Definition appendTo (s src : Slice) : HM Slice := fun m cs =>
    let n := slen s + slen src in
    let vs := vtab m src in
    if n <=? scap s then
      m <- vwrite m (base s + slen s) vs ;;
      Some (MkSlice (base s) n (scap s), m, cs)
    else
      let cap := Nat.max n (grow (scap s) n) in
      Some (MkSlice (length m) n cap, m ++ (vtab m s ++ vs) ++ repeat 0 (cap - n), cs).

  (** snark/polynomial/multilinear.go:47-51 DeepCopy *)
  Definition VDeepCopy (table : Slice) : HM Slice :=
    tableDC <~ make (slen table) ;;
    _ <~ hfold (fun _ i => x <~ load table i ;; store tableDC i x) (seq 0 (slen table)) tt ;;
    hret tableDC.

  (** multilinear.go:54-67 Fold: the new m.Table *)
  Definition VFold (table : Slice) (x : nat) : HM Slice :=
    let k := slen table / 2 in
    _ <~ hfold (fun _ i =>
      top <~ load table (i + k) ;;
      bot <~ load table i ;;
      tmpLinExp <~ gadget (cSub top bot) ;;
      tmp <~ gadget (cMul tmpLinExp x) ;;
      bot <~ load table i ;;
      v <~ gadget (cAdd bot tmp []) ;;
      store table i v) (seq 0 k) tt ;;
    hlift (hslice table 0 k).

  (** multilinear.go:70-77 Eval *)
  Definition VEval (table xs : Slice) : HM nat :=
    f <~ VDeepCopy table ;;
    f <~ hfold (fun f i => x <~ load xs i ;; VFold f x) (seq 0 (slen xs)) f ;;
    load f 0.

  (** multilinear.go:82-99 EvalMixed *)
  Definition VEvalMixed (table qL qR qPrime : Slice) : HM (nat * nat) :=
    let nChunks := 2 ^ slen qL in
    chunkSize <~ hlift (godiv (slen table) nChunks) ;;
    intermediateTable <~ make nChunks ;;
    _ <~ hfold (fun _ i =>
      multlin <~ hlift (hslice table (i * chunkSize) ((i + 1) * chunkSize)) ;;
      v <~ VEval multlin qPrime ;;
      store intermediateTable i v) (seq 0 nChunks) tt ;;
    vL <~ VEval intermediateTable qL ;;
    vR <~ VEval intermediateTable qR ;;
    hret (vL, vR).

  (** snark/sumcheck/sumcheck.go:51-72 AssertValid *)
  Definition VSumcheckAssertValid (HPolys : list Slice) (initialClaim bG : nat) : HM (Slice * Slice * Slice * nat) :=
    hs <~ make (length HPolys) ;;
    claimCurr <~ hfold (fun claimCurr i =>
      poly <~ hlift (get HPolys i) ;;
      coeffs <~ values poly ;;
      zeroAndOne <~ gadget (SZeroAndOne coeffs) ;;
      _ <~ gadget (cAssertIsEqual zeroAndOne claimCurr) ;;
      h <~ gadget (SMimcHash Arks coeffs) ;;
      _ <~ store hs i h ;;
      h <~ load hs i ;;
      gadget (SUniEval coeffs h)) (seq 0 (length HPolys)) initialClaim ;;
    s <~ hlift (hslice hs 0 bG) ;;
    hL <~ appendTo nilSlice s ;;
    s <~ hlift (hslice hs bG (2 * bG)) ;;
    hR <~ appendTo nilSlice s ;;
    s <~ hlift (hslice hs (2 * bG) (slen hs)) ;;
    hPrime <~ appendTo nilSlice s ;;
    hret (hL, hR, hPrime, claimCurr).

  (** [append(append([]frontend.Variable{}, a...), b...)] *)
  Definition concat2 (a b : Slice) : HM Slice := s <~ appendTo nilSlice a ;; appendTo s b.

  (** a call of a static table generator *)
  Definition VTable (gen : StaticTableGenerator (F:=F)) (q : Slice) : HM Slice :=
    Q <~ values q ;;
    t <~ gadget (gen Q) ;;
    literal t.

  (** snark/polynomial/eq.go:18-25 EqEval *)
  Definition VEqEval (qPrime hPrime : Slice) : HM nat :=
    a <~ values qPrime ;;
    b <~ values hPrime ;;
    gadget (SEqEval a b).

  (** snark/gkr/circuit.go:24-37 Combine *)
  Definition VCombine (l : SLayer F) (q qPrime hL hR hPrime : Slice) (vL vR : nat) : HM nat :=
    res <~ gadget (cConstant fzero) ;;
    hLhR <~ concat2 hL hR ;;
    res <~ hfold (fun res i =>
      gen <~ hlift (get (sTables l) i) ;;
      tab <~ VTable gen q ;;
      t <~ VEval tab hLhR ;;
      gate <~ hlift (get (sGates l) i) ;;
      g <~ gadget (gate vL vR) ;;
      p <~ gadget (cMul t g) ;;
      gadget (cAdd res p [])) (seq 0 (length (sGates l))) res ;;
    e <~ VEqEval qPrime hPrime ;;
    gadget (cMul res e).

  (** circuit.go:41-59 CombineWithLinearComb *)
  Definition VCombineWithLinearComb (l : SLayer F) (qL qR qPrime hL hR hPrime : Slice) (lambdaL lambdaR vL vR : nat) : HM nat :=
    res <~ gadget (cConstant fzero) ;;
    hLhR <~ concat2 hL hR ;;
    res <~ hfold (fun res i =>
      gen <~ hlift (get (sTables l) i) ;;
      tabL <~ VTable gen qL ;;
      tabR <~ VTable gen qR ;;
      tL <~ VEval tabL hLhR ;;
      aL <~ gadget (cMul lambdaL tL) ;;
      tR <~ VEval tabR hLhR ;;
      aR <~ gadget (cMul lambdaR tR) ;;
      tabEval <~ gadget (cAdd aL aR []) ;;
      gate <~ hlift (get (sGates l) i) ;;
      g <~ gadget (gate vL vR) ;;
      p <~ gadget (cMul tabEval g) ;;
      gadget (cAdd res p [])) (seq 0 (length (sGates l))) res ;;
    e <~ VEqEval qPrime hPrime ;;
    gadget (cMul res e).

  (** snark/gkr/proof.go:17-21 Proof *)
  Record VProof := MkVProof { vSumchecks : list (list Slice); vLeft : Slice; vRight : Slice }.

  (** proof.go:72-92, see SAssertLayer of MSnark.v *)
  Definition VAssertLayer (c : list (SLayer F)) (p : VProof) (st : Slice * Slice * Slice) (layer : nat)
    : HM (Slice * Slice * Slice) :=
    let '(hL, hR, hPrime) := st in
    lambdaL <~ gadget (cConstant fone) ;;
    cl <~ load (vLeft p) (layer + 1) ;;
    cr <~ load (vRight p) (layer + 1) ;;
    lambdaR <~ gadget (SMimcHash Arks [cl; cr]) ;;
    t <~ gadget (cMul lambdaR cr) ;;
    claim <~ gadget (cAdd cl t []) ;;
    let '(qL, qR, qPrime) := (hL, hR, hPrime) in
    sp <~ hlift (get (vSumchecks p) layer) ;;
    l <~ hlift (get c layer) ;;
    '(hL, hR, hPrime, expectedTotalClaim) <~ VSumcheckAssertValid sp claim (sBG l) ;;
    vl <~ load (vLeft p) layer ;;
    vr <~ load (vRight p) layer ;;
    actualTotalClaim <~ VCombineWithLinearComb l qL qR qPrime hL hR hPrime lambdaL lambdaR vl vr ;;
    _ <~ gadget (cAssertIsEqual expectedTotalClaim actualTotalClaim) ;;
    hret (hL, hR, hPrime).

  (** proof.go:51-99 AssertValid *)
  Definition VGkrAssertValid (p : VProof) (c : list (SLayer F)) (qInitial qPrimeInitial vInput vOutput : Slice) : HM unit :=
    let last := MimcRounds - 1 in
    qqPrime <~ concat2 qInitial qPrimeInitial ;;
    claim <~ VEval vOutput qqPrime ;;
    sp <~ hlift (get (vSumchecks p) last) ;;
    l <~ hlift (get c last) ;;
    '(hL, hR, hPrime, expectedTotalClaim) <~ VSumcheckAssertValid sp claim (sBG l) ;;
    vl <~ load (vLeft p) last ;;
    vr <~ load (vRight p) last ;;
    actualTotalClaim <~ VCombine l qInitial qPrimeInitial hL hR hPrime vl vr ;;
    _ <~ gadget (cAssertIsEqual expectedTotalClaim actualTotalClaim) ;;
    '(hL, hR, hPrime) <~ hfold (VAssertLayer c p) (rev (seq 0 last)) (hL, hR, hPrime) ;;
    actualVL <~ load (vLeft p) 0 ;;
    actualVR <~ load (vRight p) 0 ;;
    '(expectedVL, expectedVR) <~ VEvalMixed vInput hL hR hPrime ;;
    _ <~ gadget (cAssertIsEqual expectedVL actualVL) ;;
    gadget (cAssertIsEqual expectedVR actualVR).
End Snark.
