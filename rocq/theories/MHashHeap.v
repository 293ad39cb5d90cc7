(** Package hash in memory: elements are written through pointers and slices, the message, the blocks, the states and the
    constants are windows into one memory (MHeap.v).  A pointer is an address.  [writable] says which addresses may be written:
    a write elsewhere is a panic.  The program itself has [writable := fun _ => true]; a smaller set makes the model stop at the
    first write outside of it, even one that is undone later. *)
From Coq Require Import List Arith Lia Bool.
From Verif Require Import Field Go MHeap MHash.
Import ListNotations.

Section HashHeap.
  Context {F : Field}.
  Open Scope F_scope.
  Notation Mem := (list F).
  Variable writable : nat -> bool.

  (** [*p] and [*p = v] *)
  Definition pget (m : Mem) (a : nat) : option F := get m a.
  Definition pset (m : Mem) (a : nat) (v : F) : option Mem := if writable a then set m a v else None.
  (** [&s[i]] and [s[i] = v] *)
  Definition addr (s : Slice) (i : nat) : option nat := if (i <? slen s)%nat then Some (base s + i)%nat else None.
  Definition wset (m : Mem) (s : Slice) (i : nat) (v : F) : option Mem := a <- addr s i ;; pset m a v.

  (** hash/poseidon.go:129-135 SBoxInplace *)
  Definition HSBox (m : Mem) (x : nat) : option Mem :=
    tmp <- pget m x ;;
    v <- pget m x ;; m <- pset m x (v * v) ;;
    v <- pget m x ;; m <- pset m x (v * tmp) ;;
    v <- pget m x ;; m <- pset m x (v * v) ;;
    v <- pget m x ;; pset m x (v * tmp).

  (** ** mimc.go; [arks] is the package variable Arks *)

  (** hash/mimc.go:30-36 MimcPermutationInPlace; [block] is passed by value *)
  Definition HMimcPermutation (m : Mem) (arks : Slice) (state : nat) (block : F) : option Mem :=
    forN MimcRounds (fun m i =>
      v <- pget m state ;; m <- pset m state (v + block) ;;
      ark <- hget m arks i ;; v <- pget m state ;; m <- pset m state (v + ark) ;;
      HSBox m state) m.

  (** hash/mimc.go:21-27 MimcUpdateInplace *)
  Definition HMimcUpdate (m : Mem) (arks : Slice) (state : nat) (block : F) : option Mem :=
    oldState <- pget m state ;;
    m <- HMimcPermutation m arks state block ;;
    v <- pget m state ;; m <- pset m state (v + oldState) ;;
    v <- pget m state ;; pset m state (v + block).

  (** hash/mimc.go:11-18 MimcHash; the variable [state] is one new cell *)
  Definition HMimcHash (m : Mem) (arks input : Slice) : option (Mem * F) :=
    let '(m, st) := halloc m 1 in
    state <- addr st 0 ;;
    m <- forN (slen input) (fun m i => x <- hget m input i ;; HMimcUpdate m arks state x) m ;;
    v <- pget m state ;; Some (m, v).

  (** common/challenge.go:10-12 GetChallenge *)
  Definition HGetChallenge (m : Mem) (arks challengeSeed : Slice) : option (Mem * F) := HMimcHash m arks challengeSeed.

  (** ** poseidon.go *)

  (** hash/poseidon.go:146-151 AddArkAndKeysInplace *)
  Definition HAddArkAndKeys (m : Mem) (state keys : Slice) (ark : F) : option Mem :=
    forN (slen state) (fun m i =>
      s <- hget m state i ;; k <- hget m keys i ;; m <- wset m state i (s + k) ;;
      s <- hget m state i ;; wset m state i (s + ark)) m.

  (** hash/poseidon.go:139-143 FullRoundInPlace, 154-156 PartialRoundInplace *)
  Definition HFullRound (m : Mem) (state : Slice) : option Mem :=
    forN (slen state) (fun m i => a <- addr state i ;; HSBox m a) m.
  Definition HPartialRound (m : Mem) (state : Slice) : option Mem := a <- addr state 0 ;; HSBox m a.

  (** hash/poseidon.go:93-96, hash/gmimc.go:61-64: recombine with the old state *)
  Definition HRecombineState (m : Mem) (state oldState block : Slice) : option Mem :=
    forN (slen state) (fun m i =>
      s <- hget m state i ;; o <- hget m oldState i ;; m <- wset m state i (s + o) ;;
      s <- hget m state i ;; b <- hget m block i ;; wset m state i (s + b)) m.

  (** [append([]fr.Element{}, state...)], hash/poseidon.go:71 and hash/gmimc.go:53: a new array.  The spare capacity that
      append may give it is left out: nothing is appended to it or sliced from it. *)
  Definition HAppendNew (m : Mem) (s : Slice) : option (Mem * Slice) :=
    let '(m, d) := halloc m (slen s) in
    m <- forN (slen s) (fun m i => x <- hget m s i ;; wset m d i x) m ;;
    Some (m, d).

  (** hash/poseidon.go:115-126 MatrixMultiplication; the rows of [mat] are slices *)
  Definition HMatrixMultiplication (m : Mem) (mat : list Slice) (vec : Slice) : option (Mem * Slice) :=
    let '(m, res) := halloc m (length mat) in
    m <- forN (length mat) (fun m i =>
      col <- get mat i ;;
      forN (slen col) (fun m j =>
        el <- hget m col j ;;
        tmp <- hget m vec j ;;
        let tmp := tmp * el in
        r <- hget m res i ;; wset m res i (r + tmp)) m) m ;;
    Some (m, res).

  (** hash/poseidon.go:75-77, 87-89 (full) and 81-83 (partial): the variable [state] is part of what the loop changes *)
  Definition HPoseidonRound (arks block : Slice) (mat : list Slice) (full : bool) (st : Mem * Slice) (i : nat) : option (Mem * Slice) :=
    let '(m, state) := st in
    ark <- hget m arks i ;;
    m <- HAddArkAndKeys m state block ark ;;
    m <- (if full then HFullRound m state else HPartialRound m state) ;;
    HMatrixMultiplication m mat state.

  (** hash/poseidon.go:68-97 Update *)
  Definition HPoseidonUpdate (m : Mem) (arks : Slice) (mat : list Slice) (nRoundsF nRoundsP : nat) (state block : Slice) : option Mem :=
    ' (m, oldState) <- HAppendNew m state ;;
    st <- forRange 0 nRoundsF (HPoseidonRound arks block mat true) (m, state) ;;
    st <- forRange nRoundsF (nRoundsF + nRoundsP) (HPoseidonRound arks block mat false) st ;;
    ' (m, state) <- forRange (nRoundsF + nRoundsP) (2 * nRoundsF + nRoundsP) (HPoseidonRound arks block mat true) st ;;
    HRecombineState m state oldState block.

  (** hash/poseidon.go:100-111 GenerateMDSMatrix; [xs], [ys] are the package variables xArr, yArr *)
  Definition HGenerateMDSMatrix (m : Mem) (xs ys : Slice) (t : nat) : option (Mem * list Slice) :=
    forN t (fun '(m, result) i =>
      let '(m, row) := halloc m t in
      m <- forN t (fun m j =>
        x <- hget m xs i ;; m <- wset m row j x ;;
        y <- hget m ys j ;; r <- hget m row j ;; m <- wset m row j (r + y) ;;
        r <- hget m row j ;; wset m row j (finv r)) m ;;
      Some (m, result ++ [row])) (m, []).

  (** ** gmimc.go *)

  (** hash/gmimc.go:70-74 InPlaceCircularPermutation: the right-hand sides are read before the writes *)
  Definition HCircularPermutation (m : Mem) (state : Slice) : option Mem :=
    forRange 1 (slen state) (fun m i =>
      im <- gosub i 1 ;;
      x <- hget m state i ;; y <- hget m state im ;;
      m <- wset m state im x ;; wset m state i y) m.

  (** hash/gmimc.go:52-65 UpdateInplace *)
  Definition HGMimcUpdate (m : Mem) (arks : Slice) (nRounds : nat) (state block : Slice) : option Mem :=
    ' (m, oldState) <- HAppendNew m state ;;
    m <- forN nRounds (fun m i =>
      ark <- hget m arks i ;;
      m <- HAddArkAndKeys m state block ark ;;
      m <- HPartialRound m state ;;
      HCircularPermutation m state) m ;;
    HRecombineState m state oldState block.

  (** hash/gmimc.go:33-44, hash/poseidon.go:47-58: the block is a new array, its words are copied from the message *)
  Definition HBlockAt (m : Mem) (t : nat) (msg : Slice) (i : nat) : option (Mem * Slice) :=
    let '(m, block) := halloc m t in
    ws <- (if (slen msg <=? i + t)%nat then hslice msg i (slen msg) else hslice msg i (i + t)) ;;
    m <- forN (slen ws) (fun m j => w <- hget m ws j ;; wset m block j w) m ;;
    Some (m, block).

  (** hash/gmimc.go:32-46, hash/poseidon.go:46-60: the loop, for t > 0; fuel as in MHash.hashLoop *)
  Fixpoint HHashLoop (update : Mem -> Slice -> Slice -> option Mem) (t : nat) (msg state : Slice) (fuel i : nat) (m : Mem) : option Mem :=
    match fuel with
    | O => Some m
    | S fuel =>
      if (i <? slen msg)%nat then
        ' (m, block) <- HBlockAt m t msg i ;;
        m <- update m state block ;;
        HHashLoop update t msg state fuel (i + t) m
      else Some m
    end.
  Definition HHashWith (update : Mem -> Slice -> Slice -> option Mem) (m : Mem) (t : nat) (msg : Slice) : option (Mem * F) :=
    let '(m, state) := halloc m t in
    m <- HHashLoop update t msg state (slen msg) 0 m ;;
    v <- hget m state 0 ;; Some (m, v).

  (** hash/gmimc.go:29-49 Hash and hash/poseidon.go:43-63 Hash *)
  Definition HGMimcHash (m : Mem) (arks : Slice) (t nRounds : nat) (msg : Slice) : option (Mem * F) :=
    HHashWith (fun m state block => HGMimcUpdate m arks nRounds state block) m t msg.
  Definition HPoseidonHash (m : Mem) (arks : Slice) (mat : list Slice) (t nRoundsF nRoundsP : nat) (msg : Slice) : option (Mem * F) :=
    HHashWith (fun m state block => HPoseidonUpdate m arks mat nRoundsF nRoundsP state block) m t msg.

  (** hash/hash_test.go:9-18 TestHashes, for a message [inputs] (make([]fr.Element, 100) in the test): the seven hashes, one after the
      other in the same memory; [mat2], [mat4], [mat8] are the matrices of the three Poseidon hashers *)
  Definition HTestHashes (m : Mem) (arks : Slice) (mat2 mat4 mat8 : list Slice) (inputs : Slice) : option (Mem * list F) :=
    ' (m, v1) <- HPoseidonHash m arks mat2 2 8 82 inputs ;;
    ' (m, v2) <- HPoseidonHash m arks mat4 4 8 83 inputs ;;
    ' (m, v3) <- HPoseidonHash m arks mat8 8 8 84 inputs ;;
    ' (m, v4) <- HGMimcHash m arks 2 91 inputs ;;
    ' (m, v5) <- HGMimcHash m arks 4 91 inputs ;;
    ' (m, v6) <- HGMimcHash m arks 8 91 inputs ;;
    ' (m, v7) <- HMimcHash m arks inputs ;;
    Some (m, [v1; v2; v3; v4; v5; v6; v7]).
End HashHeap.
