(** Model of common/env.go, and of the strings of circuit/gates.go. *)
From Coq Require Import List ZArith Ascii String Bool.
From Verif Require Import Field FrPrime Fr Go MCircuit MString.
Import ListNotations.
Local Open Scope Z_scope.

(** The environment of the process: the value of each variable that is set *)
Definition Env := Str -> option Str.

(** os.Getenv: the empty string for a variable that is not set *)
Definition Getenv (env : Env) (name : Str) : Str := match env name with Some s => s | None => [] end.

Definition isDigit (c : ascii) : bool := ((48 <=? nat_of_ascii c) && (nat_of_ascii c <=? 57))%nat.

(** strconv.Atoi with a 64-bit int: an optional sign, digits, a value in the range of int; [None] for an error *)
Definition Atoi (s : Str) : option Z :=
  let '(neg, ds) := match s with
    | "-"%char :: r => (true, r)
    | "+"%char :: r => (false, r)
    | _ => (false, s)
    end in
  match ds with
  | [] => None
  | _ =>
    if forallb isDigit ds then
      let un := fold_left (fun n c => n * 10 + (Z.of_nat (nat_of_ascii c) - 48)) ds 0 in
      if (neg : bool) then (if un <=? 2 ^ 63 then Some (- un) else None)
      else (if un <? 2 ^ 63 then Some un else None)
    else None
  end.

(** common/env.go:10-14 *)
Definition bNEnv := str "BN_GKR".
Definition nChunksEnv := str "NCHUNKS_GKR".
Definition profileEnv := str "PROFILE_GKR".
Definition traceEnv := str "TRACE_GKR".
Definition nProcessesEnv := str "NPROCESSES_ENV".

Definition strEqb (a b : Str) : bool := if list_eq_dec ascii_dec a b then true else false.

(** common/env.go:20-26 GetBN, 30-36 GetNChunks, 51-57 GetNProcesses; [None] for the panic *)
Definition GetBN (env : Env) : option Z := Atoi (Getenv env bNEnv).
Definition GetNChunks (env : Env) : option Z := Atoi (Getenv env nChunksEnv).
Definition GetNProcesses (env : Env) : option Z := Atoi (Getenv env nProcessesEnv).

(** common/env.go:40-42 GetProfiled, 46-48 GetTraced *)
Definition GetProfiled (env : Env) : bool := strEqb (Getenv env profileEnv) (str "1").
Definition GetTraced (env : Env) : bool := strEqb (Getenv env traceEnv) (str "1").

(** The strings returned by ID(), circuit/gates.go:42, 79, 114, 155; [other] for gates defined elsewhere *)
Definition idString (other : nat -> Str) (id : GateId Fr) : Str :=
  match id with
  | IdAdd => str "AddGate"
  | IdMul => str "MulGate"
  | IdCopy => str "CopyGate"
  | IdCipher ark => (str "CipherGate-" ++ FrString ark)%list
  | IdOther n => other n
  end.
