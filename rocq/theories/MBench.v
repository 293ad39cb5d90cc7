(** Model of the benchmark with several provers, examples/mimc_test.go:125-163 benchmarkMIMCGKRProverMultiProcess, one
    iteration of its loop, as a transition system: the main goroutine, [nProcesses] goroutines, and three wait groups.

    Scheduling is arbitrary interleaving.  wg.Done panics when the counter would become negative, wg.Wait blocks until the
    counter is 0.  The timers of testing.B are left out.  common.ProfileTrace is taken to call its argument and return; when
    it does is C69. *)
From Coq Require Import List Arith ZArith Lia Bool.
From Verif Require Import Field FrPrime Fr Go MCommon MPoly MCircuit MSumcheck MSumPar MGkr MHash MTests.
Import ListNotations.

(** What a call does *)
Inductive outcome (A : Type) := Ret (a : A) | Panics | Blocks.
Arguments Ret {A}. Arguments Panics {A}. Arguments Blocks {A}.

Section Bench.
  Context {A B : Type}.
  (** lines 135-144: what goroutine [k] builds; lines 147: the proof it computes from it *)
  Variable setup : nat -> outcome A.
  Variable prove : A -> outcome B.
  Variable n : nat.

  (** The main goroutine: about to start goroutine k (133); in wgReady.Wait (151); about to signal (155); in wgDone.Wait
      (156); past it. *)
  Inductive bmain := BSpawn (k : nat) | BReady | BGo | BDone | BEnd.
  (** A goroutine: not started; building its prover; about to call wgReady.Done (145); in wgGo.Wait (146); proving; about to
      write the package variable _mimcProof (147); about to call wgDone.Done (148); finished. *)
  Inductive bproc := PNew | PSetup | PReady (a : A) | PWait (a : A) | PProve (a : A) | PStore (b : B) | PDone | PEnd.

  Record bst := MkB { bm : bmain; ready : nat; go : nat; done : nat; procs : list bproc; cell : option B }.

  Definition bspawn (k : nat) : bmain := if k <? n then BSpawn k else BReady.

  Inductive bstep : bst -> option bst -> Prop :=
  | b_spawn k r g d p c :
      bstep (MkB (BSpawn k) r g d p c) (Some (MkB (bspawn (S k)) r g d (upd p k PSetup) c))
  | b_ready g d p c :
      bstep (MkB BReady 0 g d p c) (Some (MkB BGo 0 g d p c))
  | b_go r g d p c :
      bstep (MkB BGo r (S g) d p c) (Some (MkB BDone r g d p c))
  | b_go_panic r d p c :
      bstep (MkB BGo r 0 d p c) None
  | b_done r g p c :
      bstep (MkB BDone r g 0 p c) (Some (MkB BEnd r g 0 p c))
  | p_setup i a m r g d p c : nth_error p i = Some PSetup -> setup i = Ret a ->
      bstep (MkB m r g d p c) (Some (MkB m r g d (upd p i (PReady a)) c))
  | p_setup_panic i m r g d p c : nth_error p i = Some PSetup -> setup i = Panics ->
      bstep (MkB m r g d p c) None
  | p_ready i a m r g d p c : nth_error p i = Some (PReady a) ->
      bstep (MkB m (S r) g d p c) (Some (MkB m r g d (upd p i (PWait a)) c))
  | p_ready_panic i a m g d p c : nth_error p i = Some (PReady a) ->
      bstep (MkB m 0 g d p c) None
  | p_wait i a m r d p c : nth_error p i = Some (PWait a) ->
      bstep (MkB m r 0 d p c) (Some (MkB m r 0 d (upd p i (PProve a)) c))
  | p_prove i a b m r g d p c : nth_error p i = Some (PProve a) -> prove a = Ret b ->
      bstep (MkB m r g d p c) (Some (MkB m r g d (upd p i (PStore b)) c))
  | p_prove_panic i a m r g d p c : nth_error p i = Some (PProve a) -> prove a = Panics ->
      bstep (MkB m r g d p c) None
  | p_store i b m r g d p c : nth_error p i = Some (PStore b) ->
      bstep (MkB m r g d p c) (Some (MkB m r g d (upd p i PDone) (Some b)))
  | p_done i m r g d p c : nth_error p i = Some PDone ->
      bstep (MkB m r g (S d) p c) (Some (MkB m r g d (upd p i PEnd) c))
  | p_done_panic i m r g p c : nth_error p i = Some PDone ->
      bstep (MkB m r g 0 p c) None.

  (** lines 129-132, for [n >= 0] *)
  Definition binit (c : option B) : bst := MkB (bspawn 0) n 1 n (repeat PNew n) c.
End Bench.

(** lines 129-132 for the integer nProcesses: wgReady.Add panics when it is negative *)
Definition bstart {A B : Type} (nProcesses : Z) (c : option B) : option (@bst A B) :=
  if (nProcesses <? 0)%Z then None else Some (binit (Z.to_nat nProcesses) c).

Section Mimc.
  Variable GetChallenge : list Fr -> Fr.
  Variable mtProve : nat -> MTProver Fr -> option (list (list Fr) * list Fr * list Fr * list Fr * list Fr).
  Variable Arks : list Fr.

  (** lines 135-144: goroutine k draws its inputs from [rnd k].  A negative shift in randomInputs panics; with 0 cores
      Assign waits for ever for a token (C25_zero_cores). *)
  Definition mimcSetup (rnd : nat -> nat -> Fr) (bN nProcesses nCore nChunks k : nat) : outcome (nat * Circuit Fr * Assignment Fr * list (list Fr)) :=
    let nCore := nCore / nProcesses in
    let nChunks := nChunks / nProcesses in
    match bN' <- gosub bN (log2ceil nProcesses) ;;
          mimcCircuit <- CreateMimcCircuit Arks ;;
          inputs <- randomInputs (rnd k) nChunks bN' ;;
          Some (mimcCircuit, inputs) with
    | None => Panics
    | Some (mimcCircuit, inputs) =>
      if nCore =? 0 then Blocks else
      match Assign mimcCircuit inputs with
      | None => Panics
      | Some assignment => Ret (nCore, mimcCircuit, assignment, inputs)
      end
    end.

  (** line 147; the inputs are kept for the statement of the theorems *)
  Definition mimcProve (p : nat * Circuit Fr * Assignment Fr * list (list Fr)) : outcome (Proof Fr) :=
    let '(nCore, mimcCircuit, assignment, _) := p in
    match GkrProve GetChallenge (mtProve nCore) mimcCircuit assignment nCore with
    | None => Panics
    | Some pf => Ret pf
    end.
End Mimc.
