(** Property theorems about the benchmark helper, the random arrays and the multi-threaded constructor (C69). *)
From Coq Require Import List Arith ZArith Lia Bool.
From Verif Require Import Field Go MCircuit MSumcheck MSumPar MAux SpecAux LAux Fr PPoly.
Import ListNotations.

(* ---------------------------------------------------------------- C69 *)
(** When the set-up succeeds: the set-up calls, fn, and the stops in the opposite order, also when fn panics; the result is
    that of fn. *)
Theorem C69_profile : forall outcome profiled traced tr o, ProfileTrace outcome profiled traced = (tr, o) ->
  (forall c, In c (setups profiled traced) -> outcome c = Returns) -> (forall c, is_stop c -> outcome c = Returns) ->
  o = outcome Fn /\
  tr = setups profiled traced ++ Fn :: match outcome Fn with Exits => [] | _ => stops profiled traced end.
Proof. exact profile_success. Qed.
Print Assumptions C69_profile.

(** Whatever returns or panics, unless the process ends: everything that was started is stopped, once, and nothing else. *)
Theorem C69_stops : forall outcome profiled traced tr o, ProfileTrace outcome profiled traced = (tr, o) -> o <> Exits ->
  forall s e, stop_of s = Some e -> calls e tr = if (calls s tr =? 1) && returns (outcome s) then 1 else 0.
Proof. exact profile_stops. Qed.
Print Assumptions C69_stops.

(** fn is called once if the set-up succeeds, and not at all otherwise. *)
Theorem C69_fn : forall outcome profiled traced tr o, ProfileTrace outcome profiled traced = (tr, o) ->
  (calls Fn tr = 1 /\ forall c, In c (setups profiled traced) -> outcome c = Returns) \/
  (calls Fn tr = 0 /\ exists c, In c (setups profiled traced) /\ outcome c <> Returns /\ calls c tr = 1).
Proof. exact profile_fn. Qed.
Print Assumptions C69_fn.

(** It returns only if every call it made returned: no panic is swallowed. *)
Theorem C69_returns : forall outcome profiled traced tr o, ProfileTrace outcome profiled traced = (tr, o) -> o = Returns ->
  forall c, In c tr -> outcome c = Returns.
Proof. exact profile_returns. Qed.
Print Assumptions C69_returns.

(** When profile.Start ends the process, a trace started before is never stopped. *)
Theorem C69_leak : forall outcome tr o, ProfileTrace outcome true true = (tr, o) ->
  outcome CreateFile = Returns -> outcome TraceStart = Returns -> outcome ProfStart = Exits ->
  tr = [CreateFile; TraceStart; ProfStart] /\ o = Exits.
Proof. exact profile_leak. Qed.
Print Assumptions C69_leak.

(** The random arrays: the next elements of the source, each used once, chunk after chunk. *)
Theorem C69_random : forall (A : Type) (rnd : nat -> A) (zero : A) size nChunks chunkSize k,
  RandomFrArray rnd zero size k = Some (map rnd (seq k size), k + size) /\
  RandomFrDoubleSlice rnd zero nChunks chunkSize k =
    Some (map (fun i => map rnd (seq (k + i * chunkSize) chunkSize)) (seq 0 nChunks), k + nChunks * chunkSize).
Proof. exact (fun A rnd zero size nChunks chunkSize k => conj (RandomFrArray_ok rnd zero size k) (RandomFrDoubleSlice_ok rnd zero nChunks chunkSize k)). Qed.
Print Assumptions C69_random.

(** NewMultiThreadedProver keeps its arguments, and its degrees are those that every sub-prover computes again. *)
Theorem C69_prover : forall (F : Field) (vL vR eq : list (list F)) gates statics p dL dR dP,
  NewMultiThreadedProver vL vR eq gates statics = (p, (dL, dR, dP)) ->
  tVL p = vL /\ tVR p = vR /\ tEq p = eq /\ tGates p = gates /\ tStatic p = statics /\
  forall i s, subInit p i = Some s -> dHL (subProver s) = dL /\ dHR (subProver s) = dR /\ dHPrime (subProver s) = dP.
Proof. exact NewMultiThreadedProver_ok. Qed.
Print Assumptions C69_prover.

(** fn panics; the trace cannot be started; a run with everything on. *)
Example C69_ex :
  ProfileTrace (fun c => match c with Fn => Panics | _ => Returns end) true true =
    ([CreateFile; TraceStart; ProfStart; StartTimer; Fn; StopTimer; ProfStop; TraceStop], Panics) /\
  ProfileTrace (fun c => match c with TraceStart => Panics | _ => Returns end) true true = ([CreateFile; TraceStart], Panics) /\
  ProfileTrace (fun c => match c with ProfStart => Exits | _ => Returns end) true true = ([CreateFile; TraceStart; ProfStart], Exits) /\
  ProfileTrace (fun _ => Returns) false false = ([StartTimer; Fn; StopTimer], Returns) /\
  RandomFrDoubleSlice (fun i => i) 0 2 3 10 = Some ([[10; 11; 12]; [13; 14; 15]], 16).
Proof. repeat split. Qed.

Example C69_ex2 : let '(p, d) := NewMultiThreadedProver [frs [1;2]%Z] [frs [1;2]%Z] [frs [5]%Z] [MulGate; CipherGate (F:=Fr) 1%F] [frs [0;0;0;1]%Z; frs [0;1;0;0]%Z] in
  d = (2, 8, 8) /\ exists s, subInit p 0 = Some s.
Proof. split; [reflexivity|]. eexists. reflexivity. Qed.
