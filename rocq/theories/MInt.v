(** 64-bit integers.  The other model files take Go's [int] to be unbounded.  This file models again
    the functions that compute with [int]s, with Go's 64-bit two's complement arithmetic, negative
    values included, and with a bound [maxLen] on what [make] allocates (Go panics for a negative
    length and for one whose size exceeds the address space: 2^43 elements of 32 bytes). *)
From Coq Require Import List ZArith.
From Verif Require Import Go Field MCommon MPoly MCircuit.
Import ListNotations.
Local Open Scope Z_scope.
Local Open Scope bool_scope.

(** The value held by an [int] after an operation with mathematical result [z]. *)
Definition wrap (z : Z) : Z := (z + 2 ^ 63) mod 2 ^ 64 - 2 ^ 63.

Definition add64 (a b : Z) : Z := wrap (a + b).
Definition sub64 (a b : Z) : Z := wrap (a - b).
Definition mul64 (a b : Z) : Z := wrap (a * b).
(** [a / b]: truncates; panics on a zero divisor; [MinInt64 / -1] wraps. *)
Definition quot64 (a b : Z) : option Z := if b =? 0 then None else Some (wrap (Z.quot a b)).
(** [a << b]: panics for a negative count; bits shifted out are lost. *)
Definition shl64 (a b : Z) : option Z := if b <? 0 then None else Some (wrap (Z.shiftl a b)).

(** [l[z]] and [l[z] = v]: a negative index panics. *)
Definition zget {A} (l : list A) (z : Z) : option A := if z <? 0 then None else get l (Z.to_nat z).
Definition zset {A} (l : list A) (z : Z) (v : A) : option (list A) :=
  if z <? 0 then None else set l (Z.to_nat z) v.

(** [make([]A, n)], filled with [x] *)
Definition make64 {A} (maxLen : Z) (x : A) (n : Z) : option (list A) :=
  if (0 <=? n) && (n <=? maxLen) then Some (repeat x (Z.to_nat n)) else None.

(** [len(l)] *)
Definition len {A} (l : list A) : Z := Z.of_nat (length l).

(* ------------------------------------------------------------------ common *)

(** common/math.go:20-26 Log2Floor: the loop runs at most 63 times on an [int], which the fuel
    exceeds. *)
Fixpoint log2floor64_loop (fuel : nat) (i res : Z) : Z :=
  match fuel with
  | O => res
  | S fuel => if i >? 1 then log2floor64_loop fuel (Z.shiftr i 1) (add64 res 1) else res
  end.
Definition Log2Floor64 (a : Z) : Z := log2floor64_loop 64 a 0.

(** common/math.go:29-35 Log2Ceil; the shift count is never negative *)
Definition Log2Ceil64 (a : Z) : option Z :=
  let floor := Log2Floor64 a in
  p <- shl64 1 floor ;;
  Some (if a =? p then floor else add64 floor 1).

(** common/chunks.go:27-30: the loop filling chunkRanges *)
Fixpoint chunk_loop64 (nChunks : nat) (chunkSize N Begin : Z) : list ChunkRange :=
  match nChunks with
  | O => []
  | S k => (Begin, Min N (add64 Begin chunkSize)) :: chunk_loop64 k chunkSize N (add64 Begin chunkSize)
  end.

(** common/chunks.go:16-33 IntoChunkRanges *)
Definition IntoChunkRanges64 (nCore N : Z) : option (list ChunkRange) :=
  q <- quot64 N (mul64 MaxChunkPerCore nCore) ;;
  let chunkSize := Max MinChunkSize q in
  nChunks <- quot64 N chunkSize ;;
  let nChunks := if mul64 nChunks chunkSize <? N then add64 nChunks 1 else nChunks in
  if nChunks <? 0 then None else
  Some (chunk_loop64 (Z.to_nat nChunks) chunkSize N 0).

(* ------------------------------------------------------------------ circuit: the sizes *)

(** circuit/layers.go:13-16 Wire and 19-23 Layer, with [int] fields *)
Record Wire64 (F : Field) := MkWire64 { w64L : Z; w64R : Z; w64O : Z; w64Gate : Gate F }.
Arguments MkWire64 {F}. Arguments w64L {F}. Arguments w64R {F}. Arguments w64O {F}.
Arguments w64Gate {F}.

Record Layer64 (F : Field) :=
  MkLayer64 { Wires64 : list (Wire64 F); l64Gates : list (Gate F); l64BGInputs : Z; l64BGOutputs : Z }.
Arguments MkLayer64 {F}. Arguments Wires64 {F}. Arguments l64Gates {F}. Arguments l64BGInputs {F}.
Arguments l64BGOutputs {F}.

Section Int.
  Context {F : Field}.
  (** the longest slice of field elements that can be allocated *)
  Variable maxLen : Z.
  Open Scope Z_scope.

  (** circuit/layers.go:105-113 BGOutputs *)
  Definition BGOutputs64 (wires : list (Wire64 F)) : option Z :=
    let res := fold_left (fun res w => if res <? w64O w then w64O w else res) wires 0 in
    Log2Ceil64 (add64 res 1).

  (** circuit/layers.go:116-127 BGInputs *)
  Definition BGInputs64 (wires : list (Wire64 F)) : option Z :=
    let res := fold_left (fun res w =>
      let res := if res <? w64L w then w64L w else res in
      if res <? w64R w then w64R w else res) wires 0 in
    Log2Ceil64 (add64 res 1).

  (** circuit/layers.go:130-139 Gates.  The map [gates] is looked up but never written. *)
  Definition Gates64 (wires : list (Wire64 F)) : list (Gate F) :=
    let gates : list (GateId F) := [] in
    fold_left (fun res wire =>
      if existsb (id_eqb (gid (w64Gate wire))) gates then res else res ++ [w64Gate wire]) wires [].

  (** circuit/layers.go:26-33 NewLayer *)
  Definition NewLayer64 (wires : list (Wire64 F)) : option (Layer64 F) :=
    bi <- BGInputs64 wires ;;
    bo <- BGOutputs64 wires ;;
    Some (MkLayer64 wires (Gates64 wires) bi bo).

  (** circuit/layers.go:46-55: the table of one gate, before folding *)
  Definition wiring_table64 (l : Layer64 F) (gate : Gate F) : option (list F) :=
    gO <- shl64 1 (mul64 2 (l64BGInputs l)) ;;
    gL <- shl64 1 (l64BGInputs l) ;;
    nO <- shl64 1 (l64BGOutputs l) ;;
    tab <- make64 maxLen fzero (mul64 nO gO) ;;
    foldM (fun tab w =>
      if id_eqb (gid (w64Gate w)) (gid gate) then
        let k := add64 (add64 (mul64 gO (w64O w)) (mul64 gL (w64L w))) (w64R w) in
        x <- zget tab k ;;
        zset tab k (fadd x fone)
      else Some tab) (Wires64 l) tab.

  (** circuit/layers.go:37-64 GetStaticTable *)
  Definition GetStaticTable64 (l : Layer64 F) (q : list F) : option (list (list F)) :=
    mapM (fun gate => tab <- wiring_table64 l gate ;; FoldMany tab q) (l64Gates l).

  (** circuit/layers.go:78-96: the body of one goroutine of Evaluate *)
  Definition eval_chunk64 (l : Layer64 F) (inps : list F) : option (list F) :=
    GInputs <- shl64 1 (l64BGInputs l) ;;
    GOutputs <- shl64 1 (l64BGOutputs l) ;;
    N <- quot64 (len inps) GInputs ;;
    subRes <- make64 maxLen fzero (mul64 N GOutputs) ;;
    foldM (fun subRes w =>
      let wON := mul64 (w64O w) N in
      let wLN := mul64 (w64L w) N in
      let wRN := mul64 (w64R w) N in
      forN (Z.to_nat N) (fun subRes h =>
        let h := Z.of_nat h in
        vL <- zget inps (add64 wLN h) ;;
        vR <- zget inps (add64 (mul64 wRN N) h) ;;
        x <- zget subRes (add64 wON h) ;;
        zset subRes (add64 wON h) (fadd x (geval (w64Gate w) vL vR))) subRes) (Wires64 l) subRes.

  (* ---------------------------------------------------------------- polynomial *)

  (** polynomial/book_keeping.go:28-35 InterleavedChunk *)
  Definition InterleavedChunk64 (table : list F) (on nChunk : Z) : option (list F) :=
    chunkSize <- quot64 (len table) nChunk ;;
    res <- make64 maxLen fzero chunkSize ;;
    forN (Z.to_nat chunkSize) (fun res i =>
      let i := Z.of_nat i in
      x <- zget table (add64 on (mul64 i nChunk)) ;;
      zset res i x) res.

  (** polynomial/eq.go:47-54 *)
  Definition eq_step64 (n : Z) (t : list F) (ir : nat * F) : option (list F) :=
    let i := Z.of_nat (fst ir) in
    let r := snd ir in
    bound <- shl64 1 i ;;
    forN (Z.to_nat bound) (fun t j =>
      J <- shl64 (Z.of_nat j) (sub64 n i) ;;
      half <- shl64 1 (sub64 (sub64 n 1) i) ;;
      let JNext := add64 J half in
      a <- zget t J ;;
      t <- zset t JNext (fmul r a) ;;
      a <- zget t J ;;
      b <- zget t JNext ;;
      zset t J (fsub a b)) t.

  (** polynomial/eq.go:42-57 GetFoldedEqTable *)
  Definition GetFoldedEqTable64 (qPrime : list F) : option (list F) :=
    let n := len qPrime in
    sz <- shl64 1 n ;;
    t <- make64 maxLen fzero sz ;;
    t <- zset t 0 fone ;;
    foldM (eq_step64 n) (combine (seq 0 (length qPrime)) qPrime) t.

  (** polynomial/eq.go:65-72 *)
  Definition chunked_eq_step64 (logNChunks : Z) (nCore : nat) (res : list (list F)) (ir : nat * F)
    : option (list (list F)) :=
    let i := Z.of_nat (fst ir) in
    let r := snd ir in
    bound <- shl64 1 i ;;
    forN (Z.to_nat bound) (fun res j =>
      J <- shl64 (Z.of_nat j) (sub64 logNChunks i) ;;
      half <- shl64 1 (sub64 (sub64 logNChunks 1) i) ;;
      let JNext := add64 J half in
      tJ <- zget res J ;;
      tN <- zget res JNext ;;
      tN <- TabMul tN r tJ nCore ;;
      res <- zset res JNext tN ;;
      tJ <- TabSub tJ tJ tN nCore ;;
      zset res J tJ) res.

  (** polynomial/eq.go:60-75 GetChunkedEqTable *)
  Definition GetChunkedEqTable64 (qPrime : list F) (nChunks : Z) (nCore : nat) : option (list (list F)) :=
    logNChunks <- Log2Ceil64 nChunks ;;
    res <- make64 maxLen [] nChunks ;;
    let cut := sub64 (len qPrime) logNChunks in
    if cut <? 0 then None else
    t0 <- GetFoldedEqTable64 (firstn (Z.to_nat cut) qPrime) ;;
    res <- zset res 0 t0 ;;
    let tail := skipn (Z.to_nat cut) qPrime in
    foldM (chunked_eq_step64 logNChunks nCore) (combine (seq 0 (length tail)) tail) res.
End Int.
