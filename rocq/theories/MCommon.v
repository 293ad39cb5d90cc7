(** Model of package common (math.go, chunks.go).  Go [int] is modelled by [Z]:
    all quantities are slice lengths or core counts, far below 2^63, so wrap-around
    of 64-bit ints is not modelled. *)
From Coq Require Import List ZArith Lia.
From Verif Require Import Go.
Import ListNotations.
Local Open Scope Z_scope.

(** common/math.go:4-9 Min *)
Definition Min (a b : Z) : Z := if a <=? b then a else b.

(** common/math.go:12-17 Max *)
Definition Max (a b : Z) : Z := if a >=? b then a else b.

(** common/math.go:21-26: [for i := a; i > 1; i = i >> 1 { res++ }] for a positive start value;
    [i >> 1] removes the lowest binary digit, which is what the recursion does. *)
Fixpoint log2floor_loop (i : positive) (res : Z) : Z :=
  match i with
  | xH => res
  | xO i' | xI i' => log2floor_loop i' (res + 1)
  end.

(** common/math.go:20-26 Log2Floor.  For [a <= 1] the loop body never runs. *)
Definition Log2Floor (a : Z) : Z :=
  match a with Zpos i => log2floor_loop i 0 | _ => 0 end.

(** common/math.go:29-35 Log2Ceil *)
Definition Log2Ceil (a : Z) : Z :=
  let floor := Log2Floor a in
  if a =? Z.shiftl 1 floor then floor else floor + 1.

(** The same on slice lengths. *)
Definition log2ceil (n : nat) : nat := Z.to_nat (Log2Ceil (Z.of_nat n)).

(** common/chunks.go:4 MinChunkSize, chunks.go:7 MaxChunkPerCore *)
Definition MinChunkSize : Z := 4096.
Definition MaxChunkPerCore : Z := 1.

(** common/chunks.go:10-12 ChunkRange: Begin, End *)
Definition ChunkRange : Type := Z * Z.

(** common/chunks.go:27-30: the loop filling chunkRanges, [nChunks] iterations. *)
Fixpoint chunk_loop (nChunks : nat) (chunkSize N Begin : Z) : list ChunkRange :=
  match nChunks with
  | O => []
  | S k => (Begin, Min N (Begin + chunkSize)) :: chunk_loop k chunkSize N (Begin + chunkSize)
  end.

(** common/chunks.go:16-33 IntoChunkRanges.  Division by zero panics; Go division truncates
    towards zero ([Z.quot]); [make] with a negative length panics. *)
Definition IntoChunkRanges (nCore N : Z) : option (list ChunkRange) :=
  if MaxChunkPerCore * nCore =? 0 then None else
  let chunkSize := Max MinChunkSize (Z.quot N (MaxChunkPerCore * nCore)) in
  let nChunks := Z.quot N chunkSize in
  let nChunks := if nChunks * chunkSize <? N then nChunks + 1 else nChunks in
  if nChunks <? 0 then None else
  Some (chunk_loop (Z.to_nat nChunks) chunkSize N 0).
