(** Memory model for the aliasing-sensitive parts: one flat memory of field elements, slices are
    windows (base address, length, capacity) into it.  A write through one slice is visible
    through every slice overlapping it.  Allocation appends fresh zeroed cells. *)
From Coq Require Import List Arith ZArith Lia Bool.
From Verif Require Import Field Go MCommon MForkJoin.
Import ListNotations.

Record Slice := MkSlice { base : nat; slen : nat; scap : nat }.

Section Heap.
  Context {F : Field}.
  Open Scope F_scope.
  Notation Mem := (list F).

  (** [s[i]] *)
  Definition hget (m : Mem) (s : Slice) (i : nat) : option F :=
    if (i <? slen s)%nat then get m (base s + i) else None.
  (** [s[i] = v] *)
  Definition hset (m : Mem) (s : Slice) (i : nat) (v : F) : option Mem :=
    if (i <? slen s)%nat then set m (base s + i) v else None.
  (** [make([]fr.Element, n)] *)
  Definition halloc (m : Mem) (n : nat) : Mem * Slice := (m ++ repeat 0 n, MkSlice (length m) n n).
  (** [s[a:b]] *)
  Definition hslice (s : Slice) (a b : nat) : option Slice :=
    if ((a <=? b) && (b <=? scap s))%nat then Some (MkSlice (base s + a) (b - a) (scap s - a)) else None.
  (** [copy(dst, src)] for equal lengths: cell by cell *)
  Definition hcopy (m : Mem) (dst src : Slice) : option Mem :=
    forN (Nat.min (slen dst) (slen src)) (fun m i => x <- hget m src i ;; hset m dst i x) m.

  (** polynomial/book_keeping.go:38-49 Fold, in memory; returns the new header of bkt.Table *)
  Definition HFold (m : Mem) (s : Slice) (r : F) : option (Mem * Slice) :=
    let mid := (slen s / 2)%nat in
    bottom <- hslice s 0 mid ;;
    top <- hslice s mid (slen s) ;;
    m <- forN mid (fun m i =>
      ti <- hget m top i ;; bi <- hget m bottom i ;;
      m <- hset m top i (ti - bi) ;;
      ti <- hget m top i ;;
      m <- hset m top i (ti * r) ;;
      bi <- hget m bottom i ;; ti <- hget m top i ;;
      hset m bottom i (bi + ti)) m ;;
    s' <- hslice s 0 mid ;;
    Some (m, s').

  (** polynomial/book_keeping.go:55-65 FunctionEvals *)
  Definition HFunctionEvals (m : Mem) (s : Slice) : option (Mem * Slice) :=
    let mid := (slen s / 2)%nat in
    let (m, fEvals) := halloc m mid in
    bottom <- hslice s 0 mid ;;
    top <- hslice s mid (slen s) ;;
    m <- forN mid (fun m i =>
      ti <- hget m top i ;; bi <- hget m bottom i ;; hset m fEvals i (ti - bi)) m ;;
    Some (m, fEvals).

  (** polynomial/book_keeping.go:75-79 DeepCopy *)
  Definition HDeepCopy (m : Mem) (s : Slice) : option (Mem * Slice) :=
    let (m, d) := halloc m (slen s) in
    m <- hcopy m d s ;; Some (m, d).

  Definition HFoldMany (m : Mem) (s : Slice) (rs : list F) : option (Mem * Slice) :=
    foldM (fun '(m, s) r => HFold m s r) rs (m, s).

  (** polynomial/book_keeping.go:85-92 Evaluate (coordinates are passed by value here) *)
  Definition HEvaluate (m : Mem) (s : Slice) (coordinates : list F) : option (Mem * F) :=
    ' (m, c) <- HDeepCopy m s ;;
    ' (m, c) <- HFoldMany m c coordinates ;;
    v <- hget m c 0 ;; Some (m, v).

  (** polynomial/book_keeping.go:98-112 EvaluateLeftAndRight *)
  Definition HEvaluateLeftAndRight (m : Mem) (s : Slice) (hPrime hL hR : list F) : option (Mem * (F * F)) :=
    ' (m, cl) <- HDeepCopy m s ;;
    ' (m, cr) <- HDeepCopy m s ;;
    ' (m, a) <- HEvaluate m cl (hL ++ hPrime) ;;
    ' (m, b) <- HEvaluate m cr (hR ++ hPrime) ;;
    Some (m, (a, b)).

  (** polynomial/book_keeping.go:116-133 LinearCombinationOfBookKeepingTables *)
  Definition HLinearCombination (m : Mem) (s0 s1 : Slice) (a0 a1 : F) : option Mem :=
    forN (slen s1) (fun m i =>
      x <- hget m s0 i ;; m <- hset m s0 i (x * a0) ;;
      x <- hget m s1 i ;; m <- hset m s1 i (x * a1) ;;
      x <- hget m s1 i ;; y <- hget m s0 i ;; hset m s1 i (x + y)) m.

  (** book_keeping.go:142-147, 166-171, 196-201: reallocate if necessary, then resize *)
  Definition hresize (m : Mem) (dst : Slice) (size : nat) : option (Mem * Slice) :=
    let (m, dst) := if (scap dst <? size)%nat then halloc m size else (m, dst) in
    dst <- hslice dst 0 size ;; Some (m, dst).

  (** polynomial/book_keeping.go:136-152 Add *)
  Definition HAdd (m : Mem) (dst left right : Slice) : option (Mem * Slice) :=
    let size := slen left in
    if negb (slen right =? size)%nat then None else
    ' (m, dst) <- hresize m dst size ;;
    m <- forN size (fun m i =>
      a <- hget m left i ;; b <- hget m right i ;; hset m dst i (a + b)) m ;;
    Some (m, dst).

  (** One goroutine per chunk; its actions are its loop iterations. *)
  Definition chunk_prog (chunks : list ChunkRange) : list (list nat) :=
    map (fun c => seq (Z.to_nat (fst c)) (Z.to_nat (snd c) - Z.to_nat (fst c))) chunks.

  (** polynomial/book_keeping.go:155-171 Sub up to the loop: memory, destination, goroutines *)
  Definition HSub_start (m : Mem) (dst left right : Slice) (nCore : nat)
    : option (Mem * Slice * list (list nat)) :=
    let size := slen left in
    chunks <- IntoChunkRanges (Z.of_nat nCore) (Z.of_nat size) ;;
    if negb (slen right =? size)%nat then None else
    ' (m, dst) <- hresize m dst size ;;
    Some (m, dst, chunk_prog chunks).
  (** book_keeping.go:177 *)
  Definition sub_exec (dst left right : Slice) (i : nat) (m : Mem) : option Mem :=
    a <- hget m left i ;; b <- hget m right i ;; hset m dst i (a - b).

  (** polynomial/book_keeping.go:188-201 Mul up to the loop *)
  Definition HMul_start (m : Mem) (dst x : Slice) (nCore : nat)
    : option (Mem * Slice * list (list nat)) :=
    let size := slen x in
    chunks <- IntoChunkRanges (Z.of_nat nCore) (Z.of_nat size) ;;
    ' (m, dst) <- hresize m dst size ;;
    Some (m, dst, chunk_prog chunks).
  (** book_keeping.go:207 *)
  Definition mul_exec (dst x : Slice) (lambda : F) (i : nat) (m : Mem) : option Mem :=
    a <- hget m x i ;; hset m dst i (a * lambda).

  (** Sub and Mul with the goroutines run one after the other (any schedule gives the same
      memory, see LHeap.v). *)
  Definition HSubSeq (m : Mem) (dst left right : Slice) (nCore : nat) : option (Mem * Slice) :=
    ' (m, dst, prog) <- HSub_start m dst left right nCore ;;
    m <- foldM (fun m i => sub_exec dst left right i m) (concat prog) m ;;
    Some (m, dst).
  Definition HMulSeq (m : Mem) (dst : Slice) (lambda : F) (x : Slice) (nCore : nat) : option (Mem * Slice) :=
    ' (m, dst, prog) <- HMul_start m dst x nCore ;;
    m <- foldM (fun m i => mul_exec dst x lambda i m) (concat prog) m ;;
    Some (m, dst).

  Definition nilSlice : Slice := MkSlice 0 0 0.

  (** polynomial/chunked.go:31-36: one level; the new tables are appended one by one *)
  Definition HRecombineStep (st : Mem * list Slice * list Slice) (q : F)
    : option (Mem * list Slice * list Slice) :=
    let '(m, inp, _) := st in
    let mid := (length inp / 2)%nat in
    ' (m, res) <- forN mid (fun '(m, res) k =>
      hi <- get inp (k + mid) ;;
      lo <- get inp k ;;
      ' (m, d) <- HSubSeq m nilSlice hi lo 1 ;;
      ' (m, d) <- HMulSeq m d q d 1 ;;
      ' (m, d) <- HAdd m d d lo ;;
      Some (m, res ++ [d])) (m, []) ;;
    Some (m, res, res).

  (** polynomial/chunked.go:19-40 chunkedEvalRecombine *)
  Definition HRecombine (m : Mem) (bkts : list Slice) (qs : list F) : option (Mem * Slice) :=
    if negb (log2ceil (length bkts) =? length qs)%nat then None else
    ' (m, _, res) <- foldM HRecombineStep qs (m, bkts, []) ;;
    r <- get res 0 ;; Some (m, r).

  (** polynomial/chunked.go:43-47 EvaluateChunked *)
  Definition HEvaluateChunked (m : Mem) (bkts : list Slice) (q : list F) : option (Mem * F) :=
    cut <- gosub (length q) (log2ceil (length bkts)) ;;
    ' (m, r) <- HRecombine m bkts (skipn cut q) ;;
    HEvaluate m r (firstn cut q).

  (** polynomial/chunked.go:50-58 EvaluateMixedChunked *)
  Definition HEvaluateMixedChunked (m : Mem) (bkts : list Slice) (hPrime hL hR : list F)
    : option (Mem * (F * F)) :=
    let logNChunks := log2ceil (length bkts) in
    if (length hPrime <? logNChunks)%nat then None else
    let cut := (length hPrime - logNChunks)%nat in
    ' (m, r) <- HRecombine m bkts (skipn cut hPrime) ;;
    HEvaluateLeftAndRight m r (firstn cut hPrime) hL hR.
End Heap.
