(** What ProfileTrace is meant to do with its resources. *)
From Coq Require Import List Arith Bool.
From Verif Require Import MAux.
Import ListNotations.

Definition call_eqb (c d : Call) : bool :=
  match c, d with
  | CreateFile, CreateFile | TraceStart, TraceStart | TraceStop, TraceStop | ProfStart, ProfStart | ProfStop, ProfStop
  | StartTimer, StartTimer | StopTimer, StopTimer | Fn, Fn => true
  | _, _ => false
  end.

(** How often [c] was called. *)
Definition calls (c : Call) (tr : list Call) : nat := length (filter (call_eqb c) tr).

Definition returns (o : Outcome) : bool := match o with Returns => true | _ => false end.

(** The call that undoes another one. *)
Definition stop_of (c : Call) : option Call :=
  match c with TraceStart => Some TraceStop | ProfStart => Some ProfStop | StartTimer => Some StopTimer | _ => None end.
Definition is_stop (c : Call) : Prop := match c with TraceStop | ProfStop | StopTimer => True | _ => False end.

Definition setups (profiled traced : bool) : list Call :=
  (if traced then [CreateFile; TraceStart] else []) ++ (if profiled then [ProfStart] else []) ++ [StartTimer].
(** The stops, in the opposite order. *)
Definition stops (profiled traced : bool) : list Call :=
  [StopTimer] ++ (if profiled then [ProfStop] else []) ++ (if traced then [TraceStop] else []).
