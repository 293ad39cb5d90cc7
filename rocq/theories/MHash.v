(** Model of package hash (mimc.go, gmimc.go, poseidon.go), of common/challenge.go and of
    examples/mimc.go.  The constants of ark.go are parameters here; see MArk.v. *)
From Coq Require Import List Arith Lia Bool.
From Verif Require Import Field Go MCommon MCircuit.
Import ListNotations.

Section Hash.
  Context {F : Field}.
  Open Scope F_scope.

  (** hash.Arks, hash.xArr, hash.yArr *)
  Variables Arks xArr yArr : list F.

  (** hash/poseidon.go:129-135 SBoxInplace *)
  Definition SBox (x : F) : F :=
    let tmp := x in
    let x := x * x in
    let x := x * tmp in
    let x := x * x in
    let x := x * tmp in
    x.

  (** ** mimc.go *)

  (** hash/mimc.go:8 *)
  Definition MimcRounds : nat := 91.

  (** hash/mimc.go:30-36 MimcPermutationInPlace: the new value of *state *)
  Definition MimcPermutation (state block : F) : option F :=
    forN MimcRounds (fun state i =>
      let state := state + block in
      ark <- get Arks i ;;
      let state := state + ark in
      Some (SBox state)) state.

  (** hash/mimc.go:21-27 MimcUpdateInplace *)
  Definition MimcUpdate (state block : F) : option F :=
    let oldState := state in
    state <- MimcPermutation state block ;;
    let state := state + oldState in
    Some (state + block).

  (** hash/mimc.go:11-18 MimcHash *)
  Definition MimcHash (input : list F) : option F := foldM (fun state x => MimcUpdate state x) input 0.

  (** common/challenge.go:10-12 GetChallenge *)
  Definition GetChallenge (challengeSeed : list F) : option F := MimcHash challengeSeed.

  (** ** Helpers of poseidon.go used by gmimc.go *)

  (** hash/poseidon.go:146-151 AddArkAndKeysInplace; keys does not share memory with state *)
  Definition AddArkAndKeys (state keys : list F) (ark : F) : option (list F) :=
    forN (length state) (fun state i =>
      s <- get state i ;;
      k <- get keys i ;;
      state <- set state i (s + k) ;;
      s <- get state i ;;
      set state i (s + ark)) state.

  (** hash/poseidon.go:139-143 FullRoundInPlace *)
  Definition FullRound (state : list F) : option (list F) :=
    forN (length state) (fun state i => s <- get state i ;; set state i (SBox s)) state.

  (** hash/poseidon.go:154-156 PartialRoundInplace (also gmimc.go:56) *)
  Definition PartialRound (state : list F) : option (list F) :=
    s <- get state 0 ;; set state 0 (SBox s).

  (** hash/poseidon.go:93-96, hash/gmimc.go:61-64: [state[i] += oldState[i]; state[i] += block[i]] *)
  Definition recombine (state oldState block : list F) : option (list F) :=
    forN (length state) (fun state i =>
      s <- get state i ;;
      o <- get oldState i ;;
      state <- set state i (s + o) ;;
      s <- get state i ;;
      b <- get block i ;;
      set state i (s + b)) state.

  (** hash/gmimc.go:33-44, hash/poseidon.go:47-58: the zero-padded block starting at [i] *)
  Definition blockAt (t : nat) (msg : list F) (i : nat) : option (list F) :=
    let block := repeat 0 t in
    ws <- (if (length msg <=? i + t)%nat then slice msg i (length msg) else slice msg i (i + t)) ;;
    forN (length ws) (fun block j => w <- get ws j ;; set block j w) block.

  (** hash/gmimc.go:32-46, hash/poseidon.go:46-60: the loop [for i := 0; i < len(msg); i += t], for t > 0.
      It runs at most len(msg) times, hence the fuel. *)
  Fixpoint hashLoop (update : list F -> list F -> option (list F)) (t : nat) (msg : list F) (fuel i : nat) (state : list F)
    : option (list F) :=
    match fuel with
    | O => Some state
    | S fuel =>
      if (i <? length msg)%nat then
        block <- blockAt t msg i ;;
        state <- update state block ;;
        hashLoop update t msg fuel (i + t) state
      else Some state
    end.

  Definition hashWith (update : list F -> list F -> option (list F)) (t : nat) (msg : list F) : option F :=
    state <- hashLoop update t msg (length msg) 0 (repeat 0 t) ;;
    get state 0.

  (** ** gmimc.go *)

  (** hash/gmimc.go:70-74 InPlaceCircularPermutation *)
  Definition CircularPermutation (state : list F) : option (list F) :=
    forRange 1 (length state) (fun state i =>
      im <- gosub i 1 ;;
      x <- get state i ;;
      y <- get state im ;;
      state <- set state im x ;;
      set state i y) state.

  (** One round, hash/gmimc.go:55-57 *)
  Definition gmimcRound (block : list F) (i : nat) (state : list F) : option (list F) :=
    ark <- get Arks i ;;
    state <- AddArkAndKeys state block ark ;;
    state <- PartialRound state ;;
    CircularPermutation state.

  Definition gmimcRounds (nRounds : nat) (state block : list F) : option (list F) :=
    forN nRounds (fun state i => gmimcRound block i state) state.

  (** hash/gmimc.go:52-65 UpdateInplace: the new contents of state *)
  Definition GMimcUpdate (nRounds : nat) (state block : list F) : option (list F) :=
    let oldState := state in
    state <- gmimcRounds nRounds state block ;;
    recombine state oldState block.

  (** hash/gmimc.go:29-49 Hash *)
  Definition GMimcHash (t nRounds : nat) (msg : list F) : option F := hashWith (GMimcUpdate nRounds) t msg.

  (** ** poseidon.go *)

  (** hash/poseidon.go:100-111 GenerateMDSMatrix *)
  Definition GenerateMDSMatrix (t : nat) : option (list (list F)) :=
    mapM (fun i => mapM (fun j =>
      x <- get xArr i ;;
      y <- get yArr j ;;
      Some (finv (x + y))) (seq 0 t)) (seq 0 t).

  (** hash/poseidon.go:115-126 MatrixMultiplication: a fresh slice *)
  Definition MatrixMultiplication (mat : list (list F)) (vec : list F) : option (list F) :=
    mapM (fun row => foldM (fun res je =>
      let '(j, el) := je in
      v <- get vec j ;;
      Some (res + v * el)) (combine (seq 0 (length row)) row) 0) mat.

  (** The slices of Update: the caller's array, and the array of the local variable [state]
      ([None]: still the caller's). *)
  Record PState := MkP { caller : list F; local : option (list F) }.
  Definition current (s : PState) : list F := match local s with Some l => l | None => caller s end.
  Definition write (s : PState) (new : list F) : PState :=
    match local s with Some _ => MkP (caller s) (Some new) | None => MkP new None end.

  (** hash/poseidon.go:75-77, 87-89 (full) and 81-83 (partial): one round; the last statement
      [state = MatrixMultiplication(...)] rebinds the variable and leaves the caller's array alone *)
  Definition poseidonRound (cauchy : list (list F)) (block : list F) (full : bool) (i : nat) (s : PState) : option PState :=
    ark <- get Arks i ;;
    st <- AddArkAndKeys (current s) block ark ;;
    let s := write s st in
    st <- (if full then FullRound (current s) else PartialRound (current s)) ;;
    let s := write s st in
    st <- MatrixMultiplication cauchy (current s) ;;
    Some (MkP (caller s) (Some st)).

  (** hash/poseidon.go:68-97 Update: the new contents of the caller's state.  [block] and [state] do not share memory. *)
  Definition PoseidonUpdate (cauchy : list (list F)) (nRoundsF nRoundsP : nat) (state block : list F) : option (list F) :=
    let oldState := state in
    let s := MkP state None in
    s <- forRange 0 nRoundsF (fun s i => poseidonRound cauchy block true i s) s ;;
    s <- forRange nRoundsF (nRoundsF + nRoundsP) (fun s i => poseidonRound cauchy block false i s) s ;;
    s <- forRange (nRoundsF + nRoundsP) (2 * nRoundsF + nRoundsP) (fun s i => poseidonRound cauchy block true i s) s ;;
    st <- recombine (current s) oldState block ;;
    Some (caller (write s st)).

  (** hash/poseidon.go:33-40 newPoseidonHasher and 43-63 Hash *)
  Definition PoseidonHash (t nRoundsF nRoundsP : nat) (msg : list F) : option F :=
    cauchy <- GenerateMDSMatrix t ;;
    hashWith (PoseidonUpdate cauchy nRoundsF nRoundsP) t msg.

  (** ** examples/mimc.go:9-26 CreateMimcCircuit *)
  Definition mimcWiring : option (list (list (Wire F))) :=
    let nRounds := 91%nat in
    init <- mapM (fun i =>
      ark <- get Arks i ;;
      Some [MkWire 1 0 0 (CipherGate ark); MkWire 1 0 1 CopyGate]) (seq 0 (nRounds - 1)) ;;
    ark <- get Arks (nRounds - 1) ;;
    Some (init ++ [[MkWire 1 0 0 (CipherGate ark)]]).
  Definition CreateMimcCircuit : option (Circuit F) :=
    wiring <- mimcWiring ;;
    Some (NewCircuit wiring).
End Hash.
