(** Fork/join parallelism with a semaphore and a wait group, as a transition system.

    Go patterns modelled (goroutine scheduling is arbitrary interleaving of the steps below):
    - [inMain = true]:  polynomial/book_keeping.go:172-184 (Sub) and 201-213 (Mul):
        [for _, chunk := range chunks { semaphore.Acquire(); go func(chunk) {
           for i := ... { body } ; semaphore.Release(); wg.Done() }(chunk) }; wg.Wait()]
    - [inMain = false]: circuit/layers.go:70-102 (Evaluate), circuit/circuit.go:51-67
      (LayerAsBKTWithCopy): [for i := range ... { go func(i) { semaphore.Acquire(); body;
           semaphore.Release(); wg.Done() }(i) }; wg.Wait()], then the deferred semaphore.Close()
      ([closes = true]).

    The semaphore is common/semaphore.go: a channel of capacity [nTok] filled with [nTok]
    tokens.  Acquire receives (it blocks on an empty open channel and returns at once on an
    empty closed one); Release sends (it blocks on a full channel and panics on a closed one).
    wg.Done panics when the counter would become negative.

    A goroutine's body is a list of atomic actions on a shared memory; an action returning
    [None] is a panic.  Each action stands for one loop iteration (one cell written); Go gives
    no atomicity guarantee for a racing program, so the atomicity is justified by the proof
    that distinct goroutines never touch the same written cell (see LForkJoin.v). *)
From Coq Require Import List Arith Lia Bool.
From Verif Require Import Go Trans.
Import ListNotations.

Section FJ.
  Context {M A : Type}.
  Variable exec : A -> M -> option M.
  Variable prog : list (list A).
  Variable nTok : nat.
  Variables inMain closes : bool.

  (** Main goroutine: about to Acquire for goroutine k; about to [go] it; in wg.Wait; about to
      Close; finished. *)
  Inductive mpc := MAcq (k : nat) | MGo (k : nat) | MWait | MClose | MEnd.

  (** Goroutine: not created; about to Acquire; running with these actions left (about to
      Release when none is left); about to wg.Done; finished. *)
  Inductive tpc := TIdle | TAcq | TRun (rem : list A) | TFin | TEnd.

  Record st := MkSt { main : mpc; toks : nat; closed : bool; wg : nat; thr : list tpc; mem : M }.

  (** Loop head of the spawning loop. *)
  Definition next (k : nat) : mpc :=
    if k <? length prog then (if inMain then MAcq k else MGo k) else MWait.

  Definition init (m : M) : st :=
    MkSt (next 0) nTok false (length prog) (repeat TIdle (length prog)) m.

  Inductive step : st -> option st -> Prop :=
  | s_acq_main k n c w t m :
      step (MkSt (MAcq k) (S n) c w t m) (Some (MkSt (MGo k) n c w t m))
  | s_acq_main_closed k w t m :
      step (MkSt (MAcq k) 0 true w t m) (Some (MkSt (MGo k) 0 true w t m))
  | s_go k n c w t m :
      step (MkSt (MGo k) n c w t m)
           (Some (MkSt (next (S k)) n c w (upd t k (if inMain then TRun (nth k prog []) else TAcq)) m))
  | s_wait n c t m :
      step (MkSt MWait n c 0 t m) (Some (MkSt (if closes then MClose else MEnd) n c 0 t m))
  | s_close n w t m :
      step (MkSt MClose n false w t m) (Some (MkSt MEnd n true w t m))
  | s_close_panic n w t m :
      step (MkSt MClose n true w t m) None
  | s_acq i p n c w t m :
      nth_error t i = Some TAcq ->
      step (MkSt p (S n) c w t m) (Some (MkSt p n c w (upd t i (TRun (nth i prog []))) m))
  | s_acq_closed i p w t m :
      nth_error t i = Some TAcq ->
      step (MkSt p 0 true w t m) (Some (MkSt p 0 true w (upd t i (TRun (nth i prog []))) m))
  | s_exec i a r p n c w t m m' :
      nth_error t i = Some (TRun (a :: r)) -> exec a m = Some m' ->
      step (MkSt p n c w t m) (Some (MkSt p n c w (upd t i (TRun r)) m'))
  | s_exec_panic i a r p n c w t m :
      nth_error t i = Some (TRun (a :: r)) -> exec a m = None ->
      step (MkSt p n c w t m) None
  | s_rel i p n w t m :
      nth_error t i = Some (TRun []) -> n < nTok ->
      step (MkSt p n false w t m) (Some (MkSt p (S n) false w (upd t i TFin) m))
  | s_rel_panic i p n w t m :
      nth_error t i = Some (TRun []) ->
      step (MkSt p n true w t m) None
  | s_done i p n c w t m :
      nth_error t i = Some TFin ->
      step (MkSt p n c (S w) t m) (Some (MkSt p n c w (upd t i TEnd) m))
  | s_done_panic i p n c t m :
      nth_error t i = Some TFin ->
      step (MkSt p n c 0 t m) None.
End FJ.
