(** Model of package polynomial: book_keeping.go, chunked.go, eq.go, lagrange.go.
    A [BookKeepingTable] is its slice [Table], a list of field elements. *)
From Coq Require Import List Arith ZArith Lia Bool.
From Verif Require Import Field Go MCommon.
Import ListNotations.

Section Poly.
  Context {F : Field}.
  Open Scope F_scope.

  (** polynomial/book_keeping.go:67-69 middleIndex *)
  Definition middleIndex (t : list F) : nat := (length t / 2)%nat.

  (** polynomial/book_keeping.go:41-47: loop body of Fold, on the backing array;
      [bottom[i]] is cell [i] and [top[i]] is cell [mid+i]. *)
  Definition fold_body (r : F) (mid : nat) (t : list F) (i : nat) : option (list F) :=
    ti <- get t (mid + i) ;;
    bi <- get t i ;;
    let ti := (ti - bi) in
    let ti := (ti * r) in
    t <- set t (mid + i) ti ;;
    set t i (bi + ti).

  (** The whole backing array after the loop (both halves are overwritten). *)
  Definition FoldArray (t : list F) (r : F) : option (list F) :=
    forN (middleIndex t) (fold_body r (middleIndex t)) t.

  (** polynomial/book_keeping.go:38-49 Fold *)
  Definition Fold (t : list F) (r : F) : option (list F) :=
    t' <- FoldArray t r ;; slice t' 0 (middleIndex t).

  (** polynomial/book_keeping.go:55-65 FunctionEvals *)
  Definition FunctionEvals (t : list F) : option (list F) :=
    let mid := middleIndex t in
    forN mid (fun fEvals i =>
      ti <- get t (mid + i) ;; bi <- get t i ;; set fEvals i (ti - bi)) (repeat 0 mid).

  (** polynomial/book_keeping.go:28-35 InterleavedChunk *)
  Definition InterleavedChunk (t : list F) (on nChunk : nat) : option (list F) :=
    chunkSize <- godiv (length t) nChunk ;;
    forN chunkSize (fun table i =>
      x <- get t (on + i * nChunk) ;; set table i x) (repeat 0 chunkSize).

  (** polynomial/book_keeping.go:75-79 DeepCopy: a fresh slice with the same contents. *)
  Definition DeepCopy (t : list F) : list F := t.

  (** [for _, r := range coordinates { bkCopy.Fold(r) }] *)
  Definition FoldMany (t : list F) (rs : list F) : option (list F) := foldM Fold rs t.

  (** polynomial/book_keeping.go:85-92 Evaluate *)
  Definition Evaluate (t : list F) (coordinates : list F) : option F :=
    bkCopy <- FoldMany (DeepCopy t) coordinates ;; get bkCopy 0.

  (** polynomial/book_keeping.go:98-112 EvaluateLeftAndRight *)
  Definition EvaluateLeftAndRight (t : list F) (hPrime hL hR : list F) : option (F * F) :=
    let bkCopyLeft := DeepCopy t in
    let bkCopyRight := DeepCopy t in
    let coordinatesLeft := hL ++ hPrime in
    let coordinatesRight := hR ++ hPrime in
    leftEval <- Evaluate bkCopyLeft coordinatesLeft ;;
    rightEval <- Evaluate bkCopyRight coordinatesRight ;;
    Some (leftEval, rightEval).

  (** polynomial/book_keeping.go:116-133 LinearCombinationOfBookKeepingTables.
      Returns the final contents of both argument tables; the returned table is the second. *)
  Definition LinearCombination (t0 t1 : list F) (a0 a1 : F) : option (list F * list F) :=
    forN (length t1) (fun '(b0, b1) i =>
      x0 <- get b0 i ;;
      b0 <- set b0 i (x0 * a0) ;;
      x1 <- get b1 i ;;
      b1 <- set b1 i (x1 * a1) ;;
      y1 <- get b1 i ;;
      y0 <- get b0 i ;;
      b1 <- set b1 i (y1 + y0) ;;
      Some (b0, b1)) (t0, t1).

  (** book_keeping.go:143-147: the destination after "reallocate if necessary, resize".
      [dst] stands for the backing array of the destination up to its capacity. *)
  Definition resize (dst : list F) (size : nat) : option (list F) :=
    let dst := if (length dst <? size)%nat then repeat 0 size else dst in
    slice dst 0 size.

  (** polynomial/book_keeping.go:136-152 Add.  Operands are read as values at call time: when
      the destination is itself an operand, cell [i] is read before it is overwritten and no
      other cell is read afterwards (this is proved on the heap model in MHeap.v). *)
  Definition TabAdd (dst left right : list F) : option (list F) :=
    let size := length left in
    if negb (length right =? size)%nat then None else
    dst <- resize dst size ;;
    forN size (fun dst i =>
      a <- get left i ;; b <- get right i ;; set dst i (a + b)) dst.

  (** the loop of one goroutine over its chunk, book_keeping.go:176-178 and 206-208 *)
  Definition over_chunk (c : ChunkRange) (f : list F -> nat -> option (list F))
             (dst : list F) : option (list F) :=
    forRange (Z.to_nat (fst c)) (Z.to_nat (snd c)) f dst.

  (** polynomial/book_keeping.go:155-185 Sub.  The goroutines are run here one after the other;
      independence from the schedule is proved on the state machine in MForkJoin.v. *)
  Definition TabSub (dst left right : list F) (nCore : nat) : option (list F) :=
    let size := length left in
    chunks <- IntoChunkRanges (Z.of_nat nCore) (Z.of_nat size) ;;
    if negb (length right =? size)%nat then None else
    dst <- resize dst size ;;
    foldM (fun dst chunk => over_chunk chunk (fun dst i =>
      a <- get left i ;; b <- get right i ;; set dst i (a - b)) dst) chunks dst.

  (** polynomial/book_keeping.go:188-214 Mul *)
  Definition TabMul (dst : list F) (lambda : F) (x : list F) (nCore : nat) : option (list F) :=
    let size := length x in
    chunks <- IntoChunkRanges (Z.of_nat nCore) (Z.of_nat size) ;;
    dst <- resize dst size ;;
    foldM (fun dst chunk => over_chunk chunk (fun dst i =>
      a <- get x i ;; set dst i (a * lambda)) dst) chunks dst.

  (** polynomial/eq.go:20-33 EvalEq *)
  Definition EvalEq (qPrime nextQPrime : list F) : option F :=
    forN (length qPrime) (fun res i =>
      q <- get qPrime i ;;
      h <- get nextQPrime i ;;
      let nxt := q * h in
      let nxt := nxt + nxt in
      let nxt := nxt + 1 in
      let sum := q + h in
      let nxt := nxt - sum in
      Some (res * nxt)) 1.

  (** polynomial/eq.go:47-54: one iteration of the outer loop *)
  Definition eq_step (n : nat) (t : list F) (ir : nat * F) : option (list F) :=
    let (i, r) := ir in
    forN (2 ^ i) (fun t j =>
      let J := (j * 2 ^ (n - i))%nat in
      let JNext := (J + 2 ^ (n - 1 - i))%nat in
      a <- get t J ;;
      t <- set t JNext (r * a) ;;
      a <- get t J ;;
      b <- get t JNext ;;
      set t J (a - b)) t.

  (** polynomial/eq.go:42-57 GetFoldedEqTable *)
  Definition GetFoldedEqTable (qPrime : list F) : option (list F) :=
    let n := length qPrime in
    t <- set (repeat 0 (2 ^ n)) 0 1 ;;
    foldM (eq_step n) (combine (seq 0 n) qPrime) t.

  (** polynomial/eq.go:65-72: one iteration of the outer loop of GetChunkedEqTable *)
  Definition chunked_eq_step (logNChunks nCore : nat) (res : list (list F)) (ir : nat * F)
    : option (list (list F)) :=
    let (i, r) := ir in
    forN (2 ^ i) (fun res j =>
      let J := (j * 2 ^ (logNChunks - i))%nat in
      let JNext := (J + 2 ^ (logNChunks - 1 - i))%nat in
      tJ <- get res J ;;
      tN <- get res JNext ;;
      tN <- TabMul tN r tJ nCore ;;
      res <- set res JNext tN ;;
      tJ <- TabSub tJ tJ tN nCore ;;
      set res J tJ) res.

  (** polynomial/eq.go:60-75 GetChunkedEqTable; a nil table is []. *)
  Definition GetChunkedEqTable (qPrime : list F) (nChunks nCore : nat) : option (list (list F)) :=
    let logNChunks := log2ceil nChunks in
    cut <- gosub (length qPrime) logNChunks ;;
    t0 <- GetFoldedEqTable (firstn cut qPrime) ;;
    res <- set (repeat [] nChunks) 0 t0 ;;
    let tail := skipn cut qPrime in
    foldM (chunked_eq_step logNChunks nCore) (combine (seq 0 (length tail)) tail) res.

  (** polynomial/chunked.go:10-16 AsChunkedBookKeepingTable *)
  Definition AsChunkedBookKeepingTable (x : list (list F)) : list (list F) := x.

  (** polynomial/chunked.go:28-36: one level of the recombination *)
  Definition recombine_step (st : list (list F) * list (list F)) (q : F)
    : option (list (list F) * list (list F)) :=
    let (inp, _) := st in
    let mid := (length inp / 2)%nat in
    res <- mapM (fun k =>
      hi <- get inp (k + mid) ;;
      lo <- get inp k ;;
      d <- TabSub [] hi lo 1 ;;
      d <- TabMul d q d 1 ;;
      TabAdd d d lo) (seq 0 mid) ;;
    Some (res, res).

  (** polynomial/chunked.go:19-40 chunkedEvalRecombine.  The pair is ([inp], [res]); [res] starts
      as nil, so with no level at all [res[0]] panics. *)
  Definition chunkedEvalRecombine (bkts : list (list F)) (qs : list F) : option (list F) :=
    if negb (log2ceil (length bkts) =? length qs)%nat then None else
    st <- foldM recombine_step qs (bkts, []) ;;
    get (snd st) 0.

  (** polynomial/chunked.go:43-47 EvaluateChunked *)
  Definition EvaluateChunked (bkts : list (list F)) (q : list F) : option F :=
    let logNChunks := log2ceil (length bkts) in
    cut <- gosub (length q) logNChunks ;;
    recombined <- chunkedEvalRecombine bkts (skipn cut q) ;;
    Evaluate recombined (firstn cut q).

  (** polynomial/chunked.go:50-58 EvaluateMixedChunked *)
  Definition EvaluateMixedChunked (bkts : list (list F)) (hPrime hL hR : list F)
    : option (F * F) :=
    let logNChunks := log2ceil (length bkts) in
    if (length hPrime <? logNChunks)%nat then None else
    let cut := (length hPrime - logNChunks)%nat in
    recombined <- chunkedEvalRecombine bkts (skipn cut hPrime) ;;
    EvaluateLeftAndRight recombined (firstn cut hPrime) hL hR.

  (** polynomial/lagrange.go:31-39 EvaluatePolynomial: the loop runs from [len-2] down to 0. *)
  Definition EvaluatePolynomial (coeffs : list F) (x : F) : option F :=
    last <- gosub (length coeffs) 1 ;;
    result <- get coeffs last ;;
    foldM (fun result i =>
      c <- get coeffs i ;;
      Some (result * x + c)) (rev (seq 0 last)) result.

  (** polynomial/lagrange.go:44-50: the binomials X - i *)
  Definition binomials (domainSize : nat) : list (list F) :=
    map (fun i => [ - fnat i ; 1 ]) (seq 0 domainSize).

  (** polynomial/lagrange.go:67-75: multiply the accumulator by one binomial.  [Min(2, n-j)]
      drops the coefficient of X^n, which is always zero. *)
  Definition mul_binomial (domainSize : nat) (acc binom : list F) : option (list F) :=
    forN domainSize (fun updated j =>
      forN (Nat.min 2 (domainSize - j)) (fun updated k =>
        tmp <- get acc j ;;
        b <- get binom k ;;
        let tmp := tmp * b in
        u <- get updated (j + k) ;;
        set updated (j + k) (u + tmp)) updated) (repeat 0 domainSize).

  (** polynomial/lagrange.go:54-89: the l-th Lagrange polynomial *)
  Definition lagrange_row (domainSize l : nat) : option (list F) :=
    acc <- set (repeat 0 domainSize) 0 1 ;;
    acc <- forN domainSize (fun acc i =>
      if (i =? l)%nat then Some acc else
      b <- get (binomials domainSize) i ;;
      mul_binomial domainSize acc b) acc ;;
    normalizationFactor <- EvaluatePolynomial acc (fnat l) ;;
    let normalizationFactor := finv normalizationFactor in
    Some (map (fun a => a * normalizationFactor) acc).

  (** polynomial/lagrange.go:42-92 LagrangeCoefficient *)
  Definition LagrangeCoefficient (domainSize : nat) : option (list (list F)) :=
    mapM (lagrange_row domainSize) (seq 0 domainSize).

  (** polynomial/lagrange.go:21 maxDomainSize *)
  Definition maxDomainSize : nat := 12.

  (** polynomial/lagrange.go:15-17 GetLagrangePolynomial and 23-28 initLagrangePolynomials:
      the table has maxDomainSize+1 entries, entry i being LagrangeCoefficient(i). *)
  Definition GetLagrangePolynomial (domainSize : nat) : option (list (list F)) :=
    if (domainSize <? maxDomainSize + 1)%nat then LagrangeCoefficient domainSize else None.

  (** polynomial/lagrange.go:96-111 InterpolateOnRange *)
  Definition InterpolateOnRange (values : list F) : option (list F) :=
    let nEvals := length values in
    lagrange <- GetLagrangePolynomial nEvals ;;
    forN nEvals (fun result i =>
      value <- get values i ;;
      row <- get lagrange i ;;
      forN (length row) (fun result j =>
        lagrangeCoeff <- get row j ;;
        let tmp := lagrangeCoeff * value in
        x <- get result j ;;
        set result j (x + tmp)) result) (repeat 0 nEvals).

End Poly.
