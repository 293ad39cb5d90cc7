(** Property theorems for common/env.go (C63) and the strings of gates (C64). *)
From Coq Require Import List ZArith Ascii String Bool Lia.
From Verif Require Import Field FrPrime Fr Go MCircuit MString SpecString MEnv LEnv.
Import ListNotations.
Local Open Scope Z_scope.

(* ---------------------------------------------------------------- C63 *)
(** The three integers: returned exactly when the variable is set to an integer of 64 bits, a panic otherwise. *)
Theorem C63_ints : forall env, readInt env (str "BN_GKR") (GetBN env) /\ readInt env (str "NCHUNKS_GKR") (GetNChunks env) /\
  readInt env (str "NPROCESSES_ENV") (GetNProcesses env).
Proof. exact env_ints. Qed.
Print Assumptions C63_ints.

(** The usual notation of an integer is read back as this integer, and no string as two integers. *)
Theorem C63_decimal : forall env s n, signed_decimal s n -> - 2 ^ 63 <= n < 2 ^ 63 ->
  (env (str "BN_GKR") = Some s -> GetBN env = Some n) /\ (env (str "NCHUNKS_GKR") = Some s -> GetNChunks env = Some n) /\
  (env (str "NPROCESSES_ENV") = Some s -> GetNProcesses env = Some n).
Proof. exact env_decimal. Qed.
Print Assumptions C63_decimal.
Theorem C63_unambiguous : forall s n n', readable s n -> readable s n' -> n = n'.
Proof. exact readable_fun. Qed.
Print Assumptions C63_unambiguous.

Theorem C63_flags : forall env, (GetProfiled env = true <-> env (str "PROFILE_GKR") = Some ["1"%char]) /\
  (GetTraced env = true <-> env (str "TRACE_GKR") = Some ["1"%char]).
Proof. exact env_flags. Qed.
Print Assumptions C63_flags.

(** No two settings share a variable. *)
Theorem C63_names : NoDup [bNEnv; nChunksEnv; profileEnv; traceEnv; nProcessesEnv].
Proof. exact env_names. Qed.
Print Assumptions C63_names.

Example C63_ex :
  let env name := if strEqb name (str "BN_GKR") then Some (str "-9223372036854775808") else
    if strEqb name (str "NCHUNKS_GKR") then Some (str "9223372036854775808") else
    if strEqb name (str "TRACE_GKR") then Some (str "1") else
    if strEqb name (str "PROFILE_GKR") then Some (str "01") else None in
  GetBN env = Some (- 2 ^ 63) /\ GetNChunks env = None /\ GetNProcesses env = None /\ GetTraced env = true /\ GetProfiled env = false /\
  map Atoi [str "+007"; str "-"; str "1_0"; str " 1"; str "12"] = [Some 7; None; None; None; Some 12].
Proof. vm_compute. repeat split. Qed.

(* ---------------------------------------------------------------- C64 *)
(** Two gates have equal strings exactly when the model gives them equal identifiers; in particular two ciphers exactly
    when they have the same ark.  Gates defined elsewhere need strings of their own. *)
Theorem C64_id_strings : forall other a b,
  (forall n m, other n = other m -> n = m) ->
  (forall n, other n <> str "AddGate" /\ other n <> str "MulGate" /\ other n <> str "CopyGate" /\
             forall x : Fr, other n <> (str "CipherGate-" ++ FrString x)%list) ->
  idString other a = idString other b <-> id_eqb a b = true.
Proof. exact id_string_inj. Qed.
Print Assumptions C64_id_strings.

Example C64_ex : map string_of_list_ascii (map (idString (fun n => repeat "x"%char n)) [IdAdd; IdCopy; IdCipher (mkfr (-1) : Fr); IdOther 3])
  = ["AddGate"; "CopyGate"; "CipherGate-21888242871839275222246405745257275088548364400416034343698204186575808495616"; "xxx"]%string /\
  (forall n m, repeat "x"%char n = repeat "x"%char m -> n = m) /\
  (forall n, repeat "x"%char n <> str "AddGate" /\ repeat "x"%char n <> str "MulGate" /\ repeat "x"%char n <> str "CopyGate" /\
             forall x : Fr, repeat "x"%char n <> (str "CipherGate-" ++ FrString x)%list).
Proof.
  split; [vm_compute; reflexivity|]. split.
  - intros n m E. apply (f_equal (@List.length _)) in E. rewrite !repeat_length in E. exact E.
  - intros [|n]; cbn; repeat split; intros; discriminate.
Qed.
