(** Start-up of package hash: the package variables, init(), and the hashers as they are used through them.
    Zero values: nil slices, and hashers whose fields are all zero. *)
From Coq Require Import List Arith Bool ZArith.
From Verif Require Import Field Go Fr MArk MHash MCircuit.
Import ListNotations.
Local Open Scope F_scope.

(** hash/poseidon.go:25-30 *)
Record PoseidonHasher := MkPH { pT : nat; pCauchy : list (list Fr); pRoundsF : nat; pRoundsP : nat }.
(** hash/gmimc.go:23-26 *)
Record GMimcHasher := MkGH { gT : nat; gRounds : nat }.

(** hash/ark.go:9-13, hash/poseidon.go:8-14, hash/gmimc.go:8-14: the package variables *)
Record HashVars := MkHV { vX : list Fr; vY : list Fr; vArks : list Fr;
  vP2 : PoseidonHasher; vP4 : PoseidonHasher; vP8 : PoseidonHasher;
  vG2 : GMimcHasher; vG4 : GMimcHasher; vG8 : GMimcHasher }.
Definition zeroPH : PoseidonHasher := MkPH 0 [] 0 0.
Definition zeroGH : GMimcHasher := MkGH 0 0.
Definition zeroVars : HashVars := MkHV [] [] [] zeroPH zeroPH zeroPH zeroGH zeroGH zeroGH.

(** hash/ark.go:15-337 initArk *)
Definition initArk (v : HashVars) : option HashVars :=
  Some (MkHV xArr yArr Arks (vP2 v) (vP4 v) (vP8 v) (vG2 v) (vG4 v) (vG8 v)).

(** hash/poseidon.go:33-40 newPoseidonHasher, with the package variables *)
Definition newPoseidonHasher (v : HashVars) (t nRoundsF nRoundsP : nat) : option PoseidonHasher :=
  cauchy <- GenerateMDSMatrix (vX v) (vY v) t ;;
  Some (MkPH t cauchy nRoundsF nRoundsP).

(** hash/poseidon.go:18-22 initPoseidon *)
Definition initPoseidon (v : HashVars) : option HashVars :=
  p2 <- newPoseidonHasher v 2 8 82 ;;
  p4 <- newPoseidonHasher v 4 8 83 ;;
  p8 <- newPoseidonHasher v 8 8 84 ;;
  Some (MkHV (vX v) (vY v) (vArks v) p2 p4 p8 (vG2 v) (vG4 v) (vG8 v)).

(** hash/gmimc.go:16-20 initGMimc *)
Definition initGMimc (v : HashVars) : option HashVars :=
  Some (MkHV (vX v) (vY v) (vArks v) (vP2 v) (vP4 v) (vP8 v) (MkGH 2 91) (MkGH 4 91) (MkGH 8 91)).

(** hash/hash.go:3-7 init *)
Definition hashInit (v : HashVars) : option HashVars :=
  v <- initArk v ;;
  v <- initPoseidon v ;;
  initGMimc v.

(** The loop of Hash, hash/gmimc.go:30-48 and hash/poseidon.go:44-62, for every [t]: about to test [i < len(msg)], or returned. *)
Inductive HashState := HLoop (i : nat) (state : list Fr) | HRet (r : Fr).
Inductive hash_step (update : list Fr -> list Fr -> option (list Fr)) (t : nat) (msg : list Fr) : HashState -> option HashState -> Prop :=
| h_block i state block state' : i < length msg -> blockAt t msg i = Some block -> update state block = Some state' ->
    hash_step update t msg (HLoop i state) (Some (HLoop (i + t) state'))
| h_block_panic i state : i < length msg -> blockAt t msg i = None -> hash_step update t msg (HLoop i state) None
| h_update_panic i state block : i < length msg -> blockAt t msg i = Some block -> update state block = None ->
    hash_step update t msg (HLoop i state) None
| h_return i state r : length msg <= i -> get state 0 = Some r -> hash_step update t msg (HLoop i state) (Some (HRet r))
| h_return_panic i state : length msg <= i -> get state 0 = None -> hash_step update t msg (HLoop i state) None.
Definition hash_start (t : nat) : HashState := HLoop 0 (repeat 0 t).

(** hash/poseidon.go:43-63 Hash and hash/gmimc.go:29-49 Hash, of a hasher, with the package variables [v] *)
Definition poseidon_hash_step (v : HashVars) (h : PoseidonHasher) (msg : list Fr) :=
  hash_step (PoseidonUpdate (vArks v) (pCauchy h) (pRoundsF h) (pRoundsP h)) (pT h) msg.
Definition gmimc_hash_step (v : HashVars) (h : GMimcHasher) (msg : list Fr) :=
  hash_step (GMimcUpdate (vArks v) (gRounds h)) (gT h) msg.
