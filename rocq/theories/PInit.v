(** Property theorems about the start-up of package hash (C68). *)
From Coq Require Import List Arith Lia Bool ZArith.
From Verif Require Import Field Go Trans Spec Fr MArk MHash MCircuit MInit LInit PPoly.
Import ListNotations.

(* ---------------------------------------------------------------- C68 *)
(** init() does not panic and sets the six hashers. *)
Theorem C68_init : exists c2 c4 c8, GenerateMDSMatrix xArr yArr 2 = Some c2 /\ GenerateMDSMatrix xArr yArr 4 = Some c4 /\
  GenerateMDSMatrix xArr yArr 8 = Some c8 /\
  hashInit zeroVars = Some (MkHV xArr yArr Arks (MkPH 2 c2 8 82) (MkPH 4 c4 8 83) (MkPH 8 c8 8 84) (MkGH 2 91) (MkGH 4 91) (MkGH 8 91)).
Proof. exact init_ok. Qed.
Print Assumptions C68_init.

(** After init, the hashers end without a panic on every message, with the value of C43 and C45. *)
Theorem C68_ready : forall v (msg : list Fr), hashInit zeroVars = Some v ->
  vArks v = Arks /\
  (forall h, In h [vP2 v; vP4 v; vP8 v] -> exists r, PoseidonHash Arks xArr yArr (pT h) (pRoundsF h) (pRoundsP h) msg = Some r /\
     must (poseidon_hash_step v h msg) (fun s => s = HRet r) (hash_start (pT h))) /\
  (forall h, In h [vG2 v; vG4 v; vG8 v] -> exists r, GMimcHash Arks (gT h) (gRounds h) msg = Some r /\
     must (gmimc_hash_step v h msg) (fun s => s = HRet r) (hash_start (gT h))).
Proof. exact hashers_ready. Qed.
Print Assumptions C68_ready.

(** initPoseidon must come after initArk. *)
Theorem C68_order : forall v, vX v = [] -> initPoseidon v = None.
Proof. exact init_order. Qed.
Print Assumptions C68_order.

(** A hasher that was not set by init (the zero value): Hash of a message that is not empty repeats the same step for
    ever, and of the empty message panics. *)
Theorem C68_zero_value : forall v (msg : list Fr),
  (msg <> [] -> forall s, reach (poseidon_hash_step v zeroPH msg) (hash_start 0) s ->
     poseidon_hash_step v zeroPH msg s (Some s) /\ forall o, poseidon_hash_step v zeroPH msg s o -> o = Some s) /\
  (msg <> [] -> forall s, reach (gmimc_hash_step v zeroGH msg) (hash_start 0) s ->
     gmimc_hash_step v zeroGH msg s (Some s) /\ forall o, gmimc_hash_step v zeroGH msg s o -> o = Some s) /\
  poseidon_hash_step v zeroPH [] (hash_start 0) None /\ gmimc_hash_step v zeroGH [] (hash_start 0) None.
Proof. exact zero_hashers. Qed.
Print Assumptions C68_zero_value.

Example C68_ex : (exists v, hashInit zeroVars = Some v) /\ vX zeroVars = [] /\ frs [1]%Z <> [].
Proof. split; [|split; [reflexivity|discriminate]]. destruct C68_init as (c2 & c4 & c8 & _ & _ & _ & E). eexists. exact E. Qed.
