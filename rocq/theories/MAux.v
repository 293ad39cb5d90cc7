(** Model of the remaining small functions: common/profiling.go, the random arrays of common/common.go and the
    constructors that only fill fields. *)
From Coq Require Import List Arith Lia Bool.
From Verif Require Import Field Go MCircuit MSumcheck MSumPar.
Import ListNotations.

(** ** common/profiling.go *)

(** The calls of ProfileTrace with an effect: os.Create of the trace file, trace.Start, trace.Stop, profile.Start, Stop of
    the profile, b.StartTimer, b.StopTimer, fn. *)
Inductive Call := CreateFile | TraceStart | TraceStop | ProfStart | ProfStop | StartTimer | StopTimer | Fn.

(** What a call does: returns, panics (or, for CreateFile and TraceStart, returns an error, which the code turns into a
    panic), or ends the process, as log.Fatalf in profile.Start does. *)
Inductive Outcome := Returns | Panics | Exits.

(** A Go function body: the calls made, the deferred calls (last one first), how the body ended. *)
Record Body := MkBody { made : list Call; deferred : list Call; ended : Outcome }.

Section Profile.
  Variable outcome : Call -> Outcome.

  Definition start : Body := MkBody [] [] Returns.
  (** [call] after [b], if [b] did not end before *)
  Definition do (c : Call) (b : Body) : Body :=
    match ended b with Returns => MkBody (made b ++ [c]) (deferred b) (outcome c) | _ => b end.
  Definition defer (c : Call) (b : Body) : Body :=
    match ended b with Returns => MkBody (made b) (c :: deferred b) Returns | _ => b end.

  (** The deferred calls run, also when the body panics, one after the other, until one ends the process; a panic in one of
      them does not stop the others. *)
  Fixpoint unwind (l : list Call) (tr : list Call) (o : Outcome) : list Call * Outcome :=
    match l with
    | [] => (tr, o)
    | c :: l =>
        match outcome c with
        | Returns => unwind l (tr ++ [c]) o
        | Panics => unwind l (tr ++ [c]) Panics
        | Exits => (tr ++ [c], Exits)
        end
    end.
  Definition finish (b : Body) : list Call * Outcome :=
    match ended b with Exits => (made b, Exits) | o => unwind (deferred b) (made b) o end.

  (** common/profiling.go:13-44 ProfileTrace: the calls in order, and how it ends *)
  Definition ProfileTrace (profiled traced : bool) : list Call * Outcome :=
    let b := start in
    (* 18-30 *)
    let b := if traced then defer TraceStop (do TraceStart (do CreateFile b)) else b in
    (* 32-38 *)
    let b := if profiled then defer ProfStop (do ProfStart b) else b in
    (* 40-43 *)
    finish (do Fn (defer StopTimer (do StartTimer b))).
End Profile.

(** ** common/common.go:54-81 *)
Section Random.
  Context {A : Type}.

  (** common/common.go:54-60 FrToGenericArray: every element boxed in an interface *)
  Definition FrToGenericArray {B} (box : A -> B) (slice : list A) : list B := map box slice.

  (** SetRandom takes the next element of the source [rnd], of which [k] were taken before. *)
  Variable rnd : nat -> A.
  Variable zero : A.

  (** common/common.go:63-69 RandomFrArray: the array and the number of elements taken *)
  Definition RandomFrArray (size k : nat) : option (list A * nat) :=
    forN size (fun '(res, k) i => res <- set res i (rnd k) ;; Some (res, S k)) (repeat zero size, k).

  (** common/common.go:72-81 RandomFrDoubleSlice *)
  Definition RandomFrDoubleSlice (nChunks chunkSize k : nat) : option (list (list A) * nat) :=
    forN nChunks (fun '(res, k) i =>
      res <- set res i (repeat zero chunkSize) ;;
      forN chunkSize (fun '(res, k) j =>
        row <- get res i ;; row <- set row j (rnd k) ;; res <- set res i row ;; Some (res, S k)) (res, k))
      (repeat [] nChunks, k).
End Random.

(** ** Constructors *)
Section Constructors.
  Context {F : Field}.

  (** sumcheck/par.go:33-58 NewMultiThreadedProver: the prover and the three degrees of its other fields *)
  Definition NewMultiThreadedProver (vL vR eq : list (list F)) (gates : list (Gate F)) (staticTables : list (list F)) :
      MTProver F * (nat * nat * nat) :=
    let '(degreeHL, degreeHR, degreeHPrime) :=
      fold_left (fun '(a, b, c) g => (Nat.max a (degHL g), Nat.max b (degHR g), Nat.max c (degHPrime g))) gates (0, 0, 0) in
    (MkMT vL vR eq gates staticTables, (degreeHL + 1, degreeHR + 1, degreeHPrime + 1)).
End Constructors.
