(** Counting model of what the GKR prover does before it starts the sum-check of a layer: the tables of eq and the wiring
    tables of MPoly.v, MCircuit.v and MGkr.v once more, with the number of field multiplications.  As in MCost.v additions,
    subtractions, copies and allocations are not counted. *)
From Coq Require Import List Arith ZArith Lia Bool.
From Verif Require Import Field Go MCommon MPoly MCircuit MSumcheck MSumPar MGkr MCost MCost2.
Import ListNotations.

Section Cost.
  Context {F : Field}.
  Open Scope F_scope.

  (** polynomial/eq.go:47-54 *)
  Definition Weq_step (n : nat) (t : list F) (ir : nat * F) : W (list F) :=
    let (i, r) := ir in
    forW (2 ^ i) (fun t j =>
      let J := (j * 2 ^ (n - i))%nat in
      let JNext := (J + 2 ^ (n - 1 - i))%nat in
      a <- get t J ;;
      p <~ wmul r a ;;
      t <- set t JNext p ;;
      a <- get t J ;;
      b <- get t JNext ;;
      t <- set t J (a - b) ;;
      ret t) t.

  (** polynomial/eq.go:42-57 GetFoldedEqTable *)
  Definition WGetFoldedEqTable (qPrime : list F) : W (list F) :=
    let n := length qPrime in
    t <- set (repeat 0 (2 ^ n)) 0 1 ;;
    foldW (Weq_step n) (combine (seq 0 n) qPrime) t.

  (** polynomial/eq.go:65-72 *)
  Definition Wchunked_eq_step (logNChunks nCore : nat) (res : list (list F)) (ir : nat * F) : W (list (list F)) :=
    let (i, r) := ir in
    forW (2 ^ i) (fun res j =>
      let J := (j * 2 ^ (logNChunks - i))%nat in
      let JNext := (J + 2 ^ (logNChunks - 1 - i))%nat in
      tJ <- get res J ;;
      tN <- get res JNext ;;
      tN <~ WTabMul tN r tJ nCore ;;
      res <- set res JNext tN ;;
      tJ <- TabSub tJ tJ tN nCore ;;
      res <- set res J tJ ;;
      ret res) res.

  (** polynomial/eq.go:60-75 GetChunkedEqTable *)
  Definition WGetChunkedEqTable (qPrime : list F) (nChunks nCore : nat) : W (list (list F)) :=
    let logNChunks := log2ceil nChunks in
    cut <- gosub (length qPrime) logNChunks ;;
    t0 <~ WGetFoldedEqTable (firstn cut qPrime) ;;
    res <- set (repeat [] nChunks) 0 t0 ;;
    let tail := skipn cut qPrime in
    foldW (Wchunked_eq_step logNChunks nCore) (combine (seq 0 (length tail)) tail) res.

  (** polynomial/book_keeping.go:116-133 LinearCombinationOfBookKeepingTables *)
  Definition WLinearCombination (t0 t1 : list F) (a0 a1 : F) : W (list F * list F) :=
    forW (length t1) (fun '(b0, b1) i =>
      x0 <- get b0 i ;;
      p <~ wmul x0 a0 ;;
      b0 <- set b0 i p ;;
      x1 <- get b1 i ;;
      p <~ wmul x1 a1 ;;
      b1 <- set b1 i p ;;
      y1 <- get b1 i ;;
      y0 <- get b0 i ;;
      b1 <- set b1 i (y1 + y0) ;;
      ret (b0, b1)) (t0, t1).

  (** gkr/prover.go:55-70 GetBookKeepingTablesForInitialRound, 106-110 InitialRoundSumcheckProver *)
  Definition WInitialRoundSumcheckProver (c : Circuit F) (a : Assignment F) (qPrime q : list F) (nCore : nat) : W (MTProver F) :=
    layer <- gosub (length c) 1 ;;
    l <- get c layer ;;
    statics <~ WGetStaticTable l q ;;
    vL <- LayerAsBKTWithCopy a layer ;;
    vR <- LayerAsBKTWithCopy a layer ;;
    eq <~ WGetChunkedEqTable qPrime (length vL) nCore ;;
    ret (MkMT vL vR eq (lGates l) statics).

  (** gkr/prover.go:93-101 *)
  Definition WcombineStatics (staticsL staticsR : list (list F)) (lambdaL lambdaR : F) : W (list (list F)) :=
    mapW (fun i =>
      tL <- get staticsL i ;;
      tR <- get staticsR i ;;
      '(_, t) <~ WLinearCombination tL tR lambdaL lambdaR ;;
      ret t) (seq 0 (length staticsL)).

  (** gkr/prover.go:73-103 GetBookKeepingTablesForIntermediateRound, 113-121 IntermediateRoundsSumcheckProver *)
  Definition WIntermediateRoundsSumcheckProver (c : Circuit F) (a : Assignment F) (layer : nat)
      (qPrime qL qR : list F) (lambdaL lambdaR : F) (nCore : nat) : W (MTProver F) :=
    vL <- LayerAsBKTWithCopy a layer ;;
    vR <- LayerAsBKTWithCopy a layer ;;
    eq <~ WGetChunkedEqTable qPrime (length vL) nCore ;;
    l <- get c layer ;;
    staticsL <~ WGetStaticTable l qL ;;
    staticsR <~ WGetStaticTable l qR ;;
    statics <~ WcombineStatics staticsL staticsR lambdaL lambdaR ;;
    ret (MkMT vL vR eq (lGates l) statics).
End Cost.
